(** Properties C18 and C59: symplectic dynamics.  [J n], [inf_symplectic],
    [symplectic], [form_of] and [documented] are defined in [Spec/Sympl.v];
    [exact_routines] and [sized_problem] in [Spec/MatAlg.v]; [session] and
    [latest] are those of [Props/PropsEvolution.v]. *)
From Coq Require Import Reals Lra.
From Coquelicot Require Import Coquelicot.
From RecordUpdate Require Import RecordUpdate.
From Verif.Model Require Import Str Base Dyn Symplectic.
From Verif.Lib Require Import Lists Csum Mat MExp MCalc MDiag.
From Verif.Spec Require Import Evolution History MatAlg Qubit Sympl.
From Verif.Proofs Require Import DynInv DynRun DynHist DynHistory DynProps MatFacts MatGrad MatProps QubitFacts SymplFacts.
Local Open Scope nat_scope.

(** ** C18 *)
Theorem C18_omega n :
  calc_omega n = J n /\ real_matrix (calc_omega n) /\
  mtrans (calc_omega n) = mneg (calc_omega n) /\
  mmul (calc_omega n) (calc_omega n) = mneg (mid (2 * n)).
Proof. rewrite omega_is_J. splits; auto using J_real, J_trans, J_square. Qed.

Theorem C18_generators n x : matrix (2 * n) (2 * n) x -> symmetric x ->
  inf_symplectic n (mmul (calc_omega n) x) /\ inf_symplectic n (mmul x (mneg (calc_omega n))).
Proof. intros H1 H2. split; [apply (phase_inf n true)|apply (phase_inf n false)]; auto. Qed.
Example C18_symmetric : matrix (2 * 1) (2 * 1) (mat2 (RtoC 2) (RtoC 1) (RtoC 1) (RtoC 5)) /\ symmetric (mat2 (RtoC 2) (RtoC 1) (RtoC 1) (RtoC 5)).
Proof.
  split; [split; auto with mat|]. unfold symmetric. apply (mat_ext 2 2); auto with mat. intros i j Hi Hj. rewrite (mtrans_ent 2 2) by auto with mat.
  destruct i as [|[|i]]; destruct j as [|[|j]]; try lia; reflexivity.
Qed.

Theorem C18_products n p x : symplectic n p -> symplectic n x -> symplectic n (mmul p x).
Proof. apply sympl_mul. Qed.
Example C18_one n : symplectic n (mid (2 * n)).
Proof. apply mid_sympl. Qed.

(** Every propagator and the full evolution preserve the form, and are real
    when the problem is. *)
Theorem C18_evolution n rt q (s : settings (MatAlg (2 * n) rt)) ts m pre st a ops :
  exact_routines (2 * n) rt -> well_posed s ts m -> sized_problem (2 * n) rt q s ->
  symplectic_problem n rt pre s -> shape ts m a -> Forall (call_ok s ts m) ops ->
  exists d d1 d2 b U ps,
    session s st a ops = Ok d /\ compute_evolution d = Ok (d1, b) /\ full_evo d1 = Ok (d2, U) /\
    snd (get_prop d1) = map Some ps /\ length ps = ts /\
    Forall (symplectic n) ps /\ form_of n U = form_of n (s_initial s) /\
    (generators_all (2 * n) rt real_matrix s -> Forall real_matrix ps) /\
    (generators_all (2 * n) rt real_matrix s -> real_matrix (s_initial s) -> real_matrix U).
Proof.
  intros EX W SP YP Ha F. pose proof (yp_suits n rt s ts m pre W YP) as HD. pose proof (mat_routines _ rt EX q s ts m SP HD) as RO.
  pose proof (latest_shape s ts m a ops Ha F) as Hl.
  destruct (session_evolution s ts m W RO st a ops Ha F) as (d & d1 & b & E & E1 & Eg & Ep & _ & (d2 & E2) & _).
  destruct (mlens _ rt EX q s ts m SP W HD _ Hl) as [L1 L2].
  exists d, d1, d2, b, (final_of s (latest a ops)), (props_of s (latest a ops)). splits; auto.
  - eapply yp_props; eauto.
  - eapply yp_final; eauto.
  - intros HR. pose proof (yp_props_real n rt EX q s ts m pre SP W YP _ Hl HR) as FR. eapply Forall_impl; [|exact FR]. intros p [_ H]. exact H.
  - intros HR HI. eapply yp_final_real; eauto.
Qed.
(** One oscillator mode, two slots. *)
Definition mode (pre : bool) : settings (MatAlg (2 * 1) plain_routines) := {|
  s_class := GenMat;
  s_drift := Some (DConst (A := MatAlg (2 * 1) plain_routines) (mid 2));
  s_ctrls := Some (CList (A := MatAlg (2 * 1) plain_routines) [sigma_x]);
  s_drift_ham := None; s_ctrl_ham := None;
  s_initial := mid 2; s_target := mid 2;
  s_tau := [1/2; 1/2]%R;
  s_phase := Some (PhOp (A := MatAlg (2 * 1) plain_routines) (sympl_phase 1 pre));
  s_phapp := if pre then PreOp else PostOp;
  s_dtype := DNdarray; s_cache_ph := true; s_cache_pg := true; s_cache_adj := false;
  s_prec := 1/10; s_prop := Frechet; s_fid := FTrace; s_phopt := SU; s_scale := None; s_dim := 2 |}.
Example C18_case pre : let s := mode pre in
  exact_routines (2 * 1) plain_routines /\ well_posed s 2 1 /\ sized_problem (2 * 1) plain_routines 2 s /\
  symplectic_problem 1 plain_routines pre s /\ shape 2 1 [[1%R]; [2%R]] /\
  Forall (call_ok s 2 1) [GetFidErr; UpdateAmps [[2%R]; [3%R]]; GetGradient] /\
  generators_all (2 * 1) plain_routines real_matrix s /\ real_matrix (s_initial s).
Proof.
  cbv zeta. assert (Hs : symmetric sigma_x).
  { apply (mat_ext 2 2); auto with mat; try apply sigma_x_herm; try (apply mtrans_sized, sigma_x_herm).
    intros i j Hi Hj. rewrite (mtrans_ent 2 2) by (auto; apply sigma_x_herm). destruct i as [|[|i]]; destruct j as [|[|j]]; try lia; reflexivity. }
  splits.
  - apply plain_exact; auto.
  - constructor; cbn; auto; try discriminate; eexists; split; try reflexivity; cbn; auto.
  - constructor; cbn.
    + split; cbn; intros x [= <-]; cbn; [split; auto with mat|]. constructor; auto. apply sigma_x_herm.
    + split; auto with mat.
    + split; auto with mat.
    + apply (phase_matrix 1).
    + destruct pre; exact I.
  - constructor; try reflexivity. split; cbn; intros x [= <-]; cbn; auto. apply mtrans_id.
  - split; auto.
  - repeat constructor; cbn; auto; discriminate.
  - split; cbn; intros x [= <-]; cbn.
    + intros i j. unfold mid, tab. cbn [ent]. destruct (_ && _); auto. destruct (_ =? _); auto.
    + constructor; auto. intros i j. unfold sigma_x, mat2, tab. cbn [ent]. destruct (_ && _); auto. destruct i as [|[|]]; destruct j as [|[|]]; auto.
  - cbn. intros i j. unfold mid, tab. cbn [ent]. destruct (_ && _); auto. destruct (_ =? _); auto.
Qed.

(** ** C59: the phase follows [phase_application]
    Whatever was read, assigned and initialised, and in whatever order, the
    exponentiated generator is infinitesimally symplectic... *)
Theorem C59_always_symplectic n l : Forall known_app l -> Forall same_size l ->
  exists y, sruns l (new_sympl (2 * n)) = Ok y /\
    (In Initialise l -> forall g, matrix (2 * n) (2 * n) g -> symmetric g -> inf_symplectic n (phased_gen y g)).
Proof. apply any_history. Qed.

(** ... and it is the documented one for the last assigned value, provided
    that the phase was not read before the first initialisation. *)
Theorem C59_documented_partial n l1 l2 :
  Forall known_app (l1 ++ l2) -> Forall same_size (l1 ++ l2) -> ~ In ReadPhase l1 -> ~ In Initialise l1 ->
  exists y, sruns (l1 ++ Initialise :: l2) (new_sympl (2 * n)) = Ok y /\
    forall g, phased_gen y g = documented n (last_app "postop" (l1 ++ l2)) g.
Proof. apply phase_history. Qed.
Example C59_case : let l1 := [SetApplication "preop"; ReadOmega] in let l2 := [ReadPhase; SetApplication "postop"; Initialise] in
  Forall known_app (l1 ++ l2) /\ Forall same_size (l1 ++ l2) /\ ~ In ReadPhase l1 /\ ~ In Initialise l1 /\
  last_app "postop" (l1 ++ l2) = "postop"%string.
Proof. cbn. splits; auto; try (repeat constructor; cbn; auto); intros [H|[H|H]]; try discriminate; auto. Qed.

(** Missing: that proviso.  Reading the phase first leaves the time-reversed
    generator: minus the documented one. *)
Theorem C59_read_first_refuted : exists l y, Forall known_app l /\ Forall same_size l /\
  sruns l (new_sympl (2 * 1)) = Ok y /\ last_app "postop" l = "preop"%string /\
  exists g, matrix 2 2 g /\ symmetric g /\ phased_gen y g <> documented 1 "preop" g /\
    phased_gen y g = mneg (documented 1 "preop" g).
Proof.
  exists [ReadPhase; SetApplication "preop"; Initialise], (mkSympl 2 (Some 2) (Some (J 1)) (Some (mneg (J 1))) "preop" (Some true) true).
  split; [repeat constructor; cbn; auto|]. split; [repeat constructor|]. split; [|split; [reflexivity|]].
  - pose proof (omega_is_J 1) as Q. unfold new_sympl. cbn [sruns sstep]. unfold read_phase, get_dyn_gen_phase, get_omega, drift_dim. cbn [y_phase y_app y_omega y_shape y_drift refresh_shape String.eqb].
    change (2 * 1 / 2) with 1. rewrite Q. reflexivity.
  - assert (S : sized 2 2 (J 1)) by apply (J_sized 1). assert (P : proper (J 1)) by apply J_proper.
    assert (E : phased_gen (mkSympl 2 (Some 2) (Some (J 1)) (Some (mneg (J 1))) "preop" (Some true) true) (mid 2) = mneg (J 1)).
    { unfold phased_gen. cbn [y_phase y_pre]. rewrite (mmul_1_r 2 2) by auto with mat. auto. }
    assert (E2 : documented 1 "preop" (mid 2) = J 1).
    { unfold documented. cbn [String.eqb]. change (mmul (J 1) (mid 2) = J 1). rewrite (mmul_1_r 2 2); auto. }
    exists (mid 2). rewrite E, E2. splits; auto.
    + split; auto with mat.
    + apply mtrans_id.
    + intros Q. apply (f_equal (fun x => Re (ent x 0 1))) in Q. rewrite (mneg_ent 2 2) in Q by (auto; lia). cbn in Q. lra.
Qed.

(** Any capitalisation is accepted by the assignment, but the initialisation
    then fails. *)
Theorem C59_capitals_refuted n : exists y,
  sruns [SetApplication "PreOp"] (new_sympl n) = Ok y /\ sstep Initialise y = Raise ValueError.
Proof. eexists. split; reflexivity. Qed.

(** A drift of another size keeps the old Omega. *)
Theorem C59_resize_refuted : exists y,
  sruns [Initialise; SetDrift 4; Initialise] (new_sympl 2) = Ok y /\ y_shape y = Some 4 /\ y_phase y = Some (mneg (calc_omega 1)).
Proof. eexists. split; [reflexivity|]. split; reflexivity. Qed.

(** Assumptions of all theorems of this file together (listed one by one in
    ASSUMPTIONS.txt). *)
Definition propsSymplectic :=
  (@C18_omega,
   @C18_generators,
   @C18_products,
   @C18_evolution,
   @C59_always_symplectic,
   @C59_documented_partial,
   @C59_read_first_refuted,
   @C59_capitals_refuted,
   @C59_resize_refuted).
Print Assumptions propsSymplectic.
