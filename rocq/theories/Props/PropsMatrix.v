(** Properties C11, C12, C14, C15, C16, C17 and C58: what the fidelity errors,
    gradients and propagators are for systems of complex matrices of any size.

    See [Spec/MatAlg.v] for the vocabulary: [exact_routines] says that the
    external numerical routines return what they promise (the matrix
    exponential and its derivative), [sized_problem N r q s] that generators
    are N x N and the initial and target operators N x q, [diag_suits] that
    the diagonalising computer is used for Hermitian generators only and with
    an exact eigen-solver, [diag_exact_at] that no two distinct phases are
    closer than the rounding precision.  [session] and [latest] are those of
    [Props/PropsEvolution.v]. *)
From Coq Require Import Reals Lra.
From Coquelicot Require Import Coquelicot.
From RecordUpdate Require Import RecordUpdate.
From Verif.Model Require Import Base Dyn.
From Verif.Lib Require Import Lists Csum Mat MExp MCalc MDiag.
From Verif.Spec Require Import Evolution History MatAlg Qubit.
From Verif.Proofs Require Import DynInv DynRun DynHist DynHistory DynProps DynMore MatFacts MatGrad MatProps QubitFacts.
Local Open Scope nat_scope.

(** The concrete case: a qubit, two slots, amplitudes changed after a query. *)
Definition qx_amps : amps := [[1%R]; [2%R]].
Definition qx_ops : list op := [GetFidErr; UpdateAmps zeros; GetGradient].
Example qx_hyps T p f po prec : p <> Approx -> matrix 2 2 T -> (0 < prec <= 1)%R ->
  let s := qubit T p f po prec in
  exact_routines 2 qubit_routines /\ well_posed s 2 1 /\ sized_problem 2 qubit_routines 2 s /\
  diag_suits 2 qubit_routines s /\ hamiltonian_problem 2 qubit_routines s /\ shape 2 1 qx_amps /\
  Forall (call_ok s 2 1) qx_ops /\ latest qx_amps qx_ops = zeros /\
  diag_exact_at 2 qubit_routines s (latest qx_amps qx_ops).
Proof.
  intros Hp HT Hr s. unfold s. splits.
  - apply qubit_exact.
  - apply qubit_well.
  - apply qubit_sized; auto.
  - apply qubit_suits.
  - apply qubit_ham.
  - split; auto. repeat constructor.
  - repeat constructor; cbn; auto.
  - reflexivity.
  - apply zeros_diag; auto.
Qed.

(** ** C11 *)
Theorem C11_trace_gradient N rt q (s : settings (MatAlg N rt)) n m st a ops :
  exact_routines N rt -> well_posed s n m -> sized_problem N rt q s -> diag_suits N rt s ->
  shape n m a -> Forall (call_ok s n m) ops ->
  s_fid s = FTrace -> s_prop s <> Approx -> diag_exact_at N rt s (latest a ops) ->
  exists d d1 g, session s st a ops = Ok d /\ get_fid_err_gradient d = Ok (d1, g) /\ shape n m g /\
    forall k j x, entry (latest a ops) k j = Some x ->
    exists y f, entry g k j = Some y /\
      (* f u: the fidelity error a new object reports with u in place of x *)
      (forall u, exists e e1, session s st (with_entry (latest a ops) k j u) [] = Ok e /\ get_fid_err e = Ok (e1, f u)) /\
      is_derive f x y.
Proof.
  intros EX W SP HD Ha F HF HA HE. pose proof (mat_routines N rt EX q s n m SP HD) as RO.
  pose proof (latest_shape s n m a ops Ha F) as Hl.
  destruct (session_gradient s n m W RO st a ops Ha F HA) as (d & d1 & g & E & E1 & G & _).
  pose proof (grad_at s n m mdexp (latest a ops) g (wp_tau _ _ _ W) Hl HA (mat_grad_routines N rt EX q s n m SP HD (latest a ops) HA HE) G) as G'.
  exists d, d1, g. splits; auto. { eapply grad_shape; eauto. }
  intros k j x Ex. destruct (err_der_trace N rt EX q s n m SP W HD (latest a ops) k j x Hl Ex HF) as (y & Ey & D).
  exists y, (fun u => fid_err_of s (with_entry (latest a ops) k j u)). splits; auto.
  - unfold entry. rewrite <- Ey. apply G'.
  - intros u. destruct (session_values s n m W RO st _ [] (with_entry_shape n m _ k j u Hl) (Forall_nil _)) as (e & e1 & _ & Q1 & Q2 & _).
    exists e, e1. auto.
Qed.
Example C11_case p : p <> Approx -> let s := qubit sigma_x p FTrace SU (1/10) in
  s_fid s = FTrace /\ s_prop s <> Approx /\ diag_exact_at 2 qubit_routines s (latest qx_amps qx_ops) /\
  entry (latest qx_amps qx_ops) 1 0 = Some 0%R.
Proof. intros Hp s. splits; auto. apply zeros_diag. lra. Qed.

(** ** C12 *)
Theorem C12_unitary_gradient N rt q (s : settings (MatAlg N rt)) n m st a ops :
  exact_routines N rt -> well_posed s n m -> sized_problem N rt q s -> diag_suits N rt s ->
  shape n m a -> Forall (call_ok s n m) ops ->
  s_fid s = FUnit -> s_prop s <> Approx -> diag_exact_at N rt s (latest a ops) ->
  (* away from fidelity one and, for PSU, from overlap zero *)
  (forall d d1 v, session s st a ops = Ok d -> get_fidelity d = Ok (d1, v) -> v <> 1%R /\ (s_phopt s = PSU -> v <> 0%R)) ->
  exists d d1 g, session s st a ops = Ok d /\ get_fid_err_gradient d = Ok (d1, g) /\ shape n m g /\
    forall k j x, entry (latest a ops) k j = Some x ->
    exists y f, entry g k j = Some y /\
      (forall u, exists e e1, session s st (with_entry (latest a ops) k j u) [] = Ok e /\ get_fid_err e = Ok (e1, f u)) /\
      is_derive f x y.
Proof.
  intros EX W SP HD Ha F HF HA HE Hv. pose proof (mat_routines N rt EX q s n m SP HD) as RO.
  pose proof (latest_shape s n m a ops Ha F) as Hl.
  destruct (session_gradient s n m W RO st a ops Ha F HA) as (d & d1 & g & E & E1 & G & _).
  destruct (session_values s n m W RO st a ops Ha F) as (d' & _ & d2 & E' & _ & E2). specialize (E2 HF).
  destruct (Hv d' d2 _ E' E2) as [V1 V0]. clear Hv E' E2 d' d2.
  pose proof (grad_at s n m mdexp (latest a ops) g (wp_tau _ _ _ W) Hl HA (mat_grad_routines N rt EX q s n m SP HD (latest a ops) HA HE) G) as G'.
  exists d, d1, g. splits; auto. { eapply grad_shape; eauto. }
  intros k j x Ex. destruct (err_der_unit N rt EX q s n m SP W HD (latest a ops) k j x Hl Ex HF V1) as (y & Ey & D).
  { intros HP Q. apply (V0 HP). unfold fidelity_of. rewrite HP, Q, Cmod_0. unfold Rdiv. ring. }
  exists y, (fun u => fid_err_of s (with_entry (latest a ops) k j u)). splits; auto.
  - unfold entry. rewrite <- Ey. apply G'.
  - intros u. destruct (session_values s n m W RO st _ [] (with_entry_shape n m _ k j u Hl) (Forall_nil _)) as (e & e1 & _ & Q1 & Q2 & _).
    exists e, e1. auto.
Qed.
Example C12_case p po st : p <> Approx -> let s := qubit (mid 2) p FUnit po (1/10) in
  s_fid s = FUnit /\ diag_exact_at 2 qubit_routines s (latest qx_amps qx_ops) /\
  (forall d d1 v, session s st qx_amps qx_ops = Ok d -> get_fidelity d = Ok (d1, v) -> v <> 1%R /\ (s_phopt s = PSU -> v <> 0%R)).
Proof.
  intros Hp s. assert (HT : matrix 2 2 (mid 2)) by (split; auto with mat).
  destruct (qx_hyps (mid 2) p FUnit po (1/10) Hp HT ltac:(lra)) as (EX & W & SP & HD & _ & Ha & F & El & HE).
  unfold s in *. splits; auto. intros d d1 v E E1.
  destruct (session_values _ 2 1 W (mat_routines 2 _ EX 2 _ 2 1 SP HD) st qx_amps qx_ops Ha F) as (d' & _ & d2 & E' & _ & E2).
  specialize (E2 eq_refl). rewrite E' in E. injection E as <-. rewrite E2 in E1. injection E1 as _ <-.
  change (latest qx_amps qx_ops) with zeros in *. rewrite zeros_fidelity. pose proof cos1. split; [|intros _]; lra.
Qed.

(** ** C14 *)
(** A unit factor on the target. *)
Theorem C14_psu_target_phase N rt q (s : settings (MatAlg N rt)) n m st a ops z :
  exact_routines N rt -> well_posed s n m -> sized_problem N rt q s -> diag_suits N rt s ->
  shape n m a -> Forall (call_ok s n m) ops ->
  s_fid s = FUnit -> s_phopt s = PSU -> Cmod z = 1%R ->
  s_class s = Unitary \/ (exact_inv N rt /\ isometry N q (s_target s)) ->
  exists d d1 e e1 v, session s st a ops = Ok d /\ get_fidelity d = Ok (d1, v) /\
    session (s <| s_target := (mscal z (s_target s) : Op (MatAlg N rt)) |>) st a ops = Ok e /\ get_fidelity e = Ok (e1, v).
Proof.
  intros EX W SP HD Ha F HF HP Hz HC. pose proof (mat_routines N rt EX q s n m SP HD) as RO.
  pose proof (latest_shape s n m a ops Ha F) as Hl.
  pose proof (tt_sized N rt q s z SP) as SP'. pose proof (tt_suits N rt s z HD) as HD'. pose proof (tt_well N rt s n m z W) as W'.
  destruct (session_values s n m W RO st a ops Ha F) as (d & _ & d1 & E & _ & E1). specialize (E1 HF).
  destruct (session_values (target_times N rt s z) n m W' (mat_routines N rt EX q _ n m SP' HD') st a ops Ha F) as (e & _ & e1 & E' & _ & E1'). specialize (E1' HF).
  rewrite (tt_fidelity N rt EX q s n m z SP Hz W HD _ Hl HP HC) in E1'.
  exists d, d1, e, e1, (fidelity_of s (latest a ops)). splits; auto.
Qed.
(** A unit factor on the evolution. *)
Theorem C14_psu_evolution_phase N rt q (s : settings (MatAlg N rt)) n m st a ops z :
  exact_routines N rt -> well_posed s n m -> sized_problem N rt q s -> diag_suits N rt s ->
  shape n m a -> Forall (call_ok s n m) ops ->
  s_fid s = FUnit -> s_phopt s = PSU -> Cmod z = 1%R ->
  exists d d1 e e1 v, session s st a ops = Ok d /\ get_fidelity d = Ok (d1, v) /\
    session (s <| s_initial := (mscal z (s_initial s) : Op (MatAlg N rt)) |>) st a ops = Ok e /\ get_fidelity e = Ok (e1, v).
Proof.
  intros EX W SP HD Ha F HF HP Hz. pose proof (mat_routines N rt EX q s n m SP HD) as RO.
  pose proof (latest_shape s n m a ops Ha F) as Hl.
  pose proof (it_sized N rt q s z SP) as SP'. pose proof (it_suits N rt s z HD) as HD'. pose proof (it_well N rt s n m z W) as W'.
  destruct (session_values s n m W RO st a ops Ha F) as (d & _ & d1 & E & _ & E1). specialize (E1 HF).
  destruct (session_values (initial_times N rt s z) n m W' (mat_routines N rt EX q _ n m SP' HD') st a ops Ha F) as (e & _ & e1 & E' & _ & E1'). specialize (E1' HF).
  rewrite (it_fidelity N rt EX q s n m z SP Hz W HD _ Hl HP) in E1'.
  exists d, d1, e, e1, (fidelity_of s (latest a ops)). splits; auto.
Qed.

(** Unitary dynamics: unitary operators (q = N) or normalised states (q = 1). *)
Theorem C14_psu_normalised N rt q (s : settings (MatAlg N rt)) n m st a ops :
  exact_routines N rt -> well_posed s n m -> sized_problem N rt q s -> diag_suits N rt s ->
  shape n m a -> Forall (call_ok s n m) ops -> s_fid s = FUnit -> s_phopt s = PSU -> 0 < q ->
  s_class s = Unitary \/ exact_inv N rt ->
  hamiltonian_problem N rt s -> isometry N q (s_initial s) -> isometry N q (s_target s) ->
  exists d d1 d2 d3 d4 b v r U,
    session s st a ops = Ok d /\ get_fidelity d = Ok (d1, v) /\ get_fid_err d = Ok (d2, r) /\
    compute_evolution d = Ok (d3, b) /\ full_evo d3 = Ok (d4, U) /\
    (0 <= v <= 1)%R /\ (0 <= r <= 1)%R /\ r = (1 - v)%R /\
    (v = 1%R <-> exists z, Cmod z = 1%R /\ U = mscal z (s_target s)).
Proof.
  intros EX W SP HD Ha F HF HP Hq HC HH HI HT. pose proof (mat_routines N rt EX q s n m SP HD) as RO.
  pose proof (latest_shape s n m a ops Ha F) as Hl.
  destruct (session_values s n m W RO st a ops Ha F) as (d & d2 & d1 & E & E2 & E1). specialize (E1 HF).
  destruct (session_evolution s n m W RO st a ops Ha F) as (d' & d3 & b & E' & E3 & _ & _ & _ & (d4 & E4) & _).
  rewrite E in E'. injection E' as <-.
  pose proof (final_iso N rt EX q s n m SP W HD (latest a ops) Hl HH HI) as IF.
  pose proof (psu_is N rt q s SP HC HT (latest a ops) HP) as V. pose proof (lt_0_INR q Hq) as Hq'.
  pose proof (overlap_mod N q _ _ HT IF) as B. pose proof (Cmod_ge_0 (mtr (mmul (mdag (s_target s)) (final_of s (latest a ops))))) as B0.
  assert (Hv : (0 <= fidelity_of s (latest a ops) <= 1)%R).
  { rewrite V. split; [apply Rdiv_le_0_compat; auto|]. apply Rmult_le_reg_r with (INR q); auto. unfold Rdiv. rewrite Rmult_assoc, Rinv_l; lra. }
  assert (Hr : fid_err_of s (latest a ops) = (1 - fidelity_of s (latest a ops))%R).
  { unfold fid_err_of. rewrite HF, Rabs_pos_eq; lra. }
  exists d, d1, d2, d3, d4, b, (fidelity_of s (latest a ops)), (fid_err_of s (latest a ops)), (final_of s (latest a ops)).
  splits; auto; try lra.
  rewrite V. rewrite <- (overlap_mod_one N q _ _ HT IF Hq). split; intros Q.
  - apply (f_equal (fun x => x * INR q)%R) in Q. unfold Rdiv in Q. rewrite Rmult_assoc, Rinv_l in Q; lra.
  - rewrite Q. field. lra.
Qed.
Theorem C14_su_normalised N rt q (s : settings (MatAlg N rt)) n m st a ops :
  exact_routines N rt -> well_posed s n m -> sized_problem N rt q s -> diag_suits N rt s ->
  shape n m a -> Forall (call_ok s n m) ops -> s_fid s = FUnit -> s_phopt s = SU -> 0 < q ->
  s_class s = Unitary \/ exact_inv N rt ->
  hamiltonian_problem N rt s -> isometry N q (s_initial s) -> isometry N q (s_target s) ->
  exists d d1 d2 d3 d4 b v r U,
    session s st a ops = Ok d /\ get_fidelity d = Ok (d1, v) /\ get_fid_err d = Ok (d2, r) /\
    compute_evolution d = Ok (d3, b) /\ full_evo d3 = Ok (d4, U) /\
    (-1 <= v <= 1)%R /\ (0 <= r <= 2)%R /\ r = (1 - v)%R /\
    (v = 1%R <-> U = s_target s).
Proof.
  intros EX W SP HD Ha F HF HP Hq HC HH HI HT. pose proof (mat_routines N rt EX q s n m SP HD) as RO.
  pose proof (latest_shape s n m a ops Ha F) as Hl.
  destruct (session_values s n m W RO st a ops Ha F) as (d & d2 & d1 & E & E2 & E1). specialize (E1 HF).
  destruct (session_evolution s n m W RO st a ops Ha F) as (d' & d3 & b & E' & E3 & _ & _ & _ & (d4 & E4) & _).
  rewrite E in E'. injection E' as <-.
  pose proof (final_iso N rt EX q s n m SP W HD (latest a ops) Hl HH HI) as IF.
  pose proof (su_is N rt q s SP HC HT (latest a ops) HP) as V. pose proof (lt_0_INR q Hq) as Hq'.
  destruct (overlap_re N q _ _ HT IF) as [B1 B2].
  assert (Hv : (-1 <= fidelity_of s (latest a ops) <= 1)%R).
  { rewrite V. split; (apply Rmult_le_reg_r with (INR q); [auto|]); unfold Rdiv; rewrite Rmult_assoc, Rinv_l; lra. }
  assert (Hr : fid_err_of s (latest a ops) = (1 - fidelity_of s (latest a ops))%R).
  { unfold fid_err_of. rewrite HF, Rabs_pos_eq; lra. }
  exists d, d1, d2, d3, d4, b, (fidelity_of s (latest a ops)), (fid_err_of s (latest a ops)), (final_of s (latest a ops)).
  splits; auto; try lra.
  rewrite V. pose proof (overlap_re_one N q _ _ HT IF) as Q0. etransitivity; [|exact Q0]. split; intros Q.
  - apply (f_equal (fun x => x * INR q)%R) in Q. unfold Rdiv in Q. rewrite Rmult_assoc, Rinv_l in Q; lra.
  - rewrite Q. field. lra.
Qed.
Example C14_case p po : p <> Approx -> let s := qubit sigma_x p FUnit po (1/10) in
  s_class s = Unitary /\ 0 < 2 /\ hamiltonian_problem 2 qubit_routines s /\
  isometry 2 2 (s_initial s) /\ isometry 2 2 (s_target s) /\ Cmod Ci = 1%R.
Proof.
  intros Hp s. splits; auto.
  - apply qubit_ham.
  - change (isometry 2 2 (mid 2)). split; [split; auto with mat|]. change (mmul (mdag (mid 2)) (mid 2) = mid 2). rewrite mdag_id, (mmul_1_l 2 2); auto with mat.
  - split; [apply sigma_x_herm|]. change (mmul (mdag sigma_x) sigma_x = mid 2). rewrite (proj2 sigma_x_herm). unfold sigma_x. rewrite mat2_mul, mat2_id.
    apply mat2_inj; ring.
  - apply Cmod_Ci.
Qed.

(** ** C15 *)
Theorem C15_trace_distance N rt q (s : settings (MatAlg N rt)) n m st a ops c :
  exact_routines N rt -> well_posed s n m -> sized_problem N rt q s -> diag_suits N rt s ->
  shape n m a -> Forall (call_ok s n m) ops -> s_fid s = FTrace ->
  (* the scale factor: the one given, else 1 / (2 dim) *)
  c = match s_scale s with Some x => x | None => 1 / (2 * INR (s_dim s)) end%R ->
  exists d d1 d2 d3 b r U,
    session s st a ops = Ok d /\ get_fid_err d = Ok (d1, r) /\
    compute_evolution d = Ok (d2, b) /\ full_evo d2 = Ok (d3, U) /\
    r = (c * sum_squares N q (msub (s_target s) U))%R /\
    ((0 < c)%R -> (0 <= r)%R /\ (r = 0%R <-> U = s_target s)).
Proof.
  intros EX W SP HD Ha F HF Hc. pose proof (mat_routines N rt EX q s n m SP HD) as RO.
  pose proof (latest_shape s n m a ops Ha F) as Hl.
  destruct (session_values s n m W RO st a ops Ha F) as (d & d1 & _ & E & E1 & _).
  destruct (session_evolution s n m W RO st a ops Ha F) as (d' & d2 & b & E' & E2 & _ & _ & _ & (d3 & E3) & _).
  rewrite E in E'. injection E' as <-. set (U := final_of s (latest a ops)).
  pose proof (final_matrix N rt EX q s n m SP W HD _ Hl) as [SU PU]. destruct (sp_target _ _ _ _ SP) as [ST PT].
  assert (R : fid_err_of s (latest a ops) = (c * sum_squares N q (msub (s_target s) U))%R).
  { unfold fid_err_of, trace_dist. rewrite HF. cbn [otr omul odag osub MatAlg]. rewrite (frob N q) by auto with mat. rewrite Hc. reflexivity. }
  exists d, d1, d2, d3, b, (fid_err_of s (latest a ops)), U. splits; auto.
  intros Hp. rewrite R. pose proof (sum_squares_pos N q (msub (s_target s) U)). split; [nra|].
  assert (Q : sum_squares N q (msub (s_target s) U) = 0%R <-> s_target s = U) by (apply sum_squares_diff; split; auto).
  split; [intros Z; symmetry; apply Q; nra|intros Z; symmetry in Z; apply Q in Z; rewrite Z; ring].
Qed.
Example C15_case : let s := qubit sigma_x Frechet FTrace SU (1/10) in
  s_fid s = FTrace /\ (1/4 = match s_scale s with Some x => x | None => 1 / (2 * INR (s_dim s)) end)%R /\ (0 < 1/4)%R.
Proof. cbn. splits; auto; lra. Qed.

(** ** C16 (diagonalising computer) and C58 (every exact computer) *)
Theorem C58_unitary_evolution N rt q (s : settings (MatAlg N rt)) n m st a ops :
  exact_routines N rt -> well_posed s n m -> sized_problem N rt q s -> diag_suits N rt s ->
  shape n m a -> Forall (call_ok s n m) ops -> hamiltonian_problem N rt s ->
  exists d d1 d2 b U ps gs,
    session s st a ops = Ok d /\ compute_evolution d = Ok (d1, b) /\ full_evo d1 = Ok (d2, U) /\
    snd (get_prop d1) = map Some ps /\ snd (get_dyn_gen d1) = map Some gs /\
    (* every propagator is unitary and is exp(-i H tau) *)
    length ps = n /\ length gs = n /\
    (forall k p, nth_error ps k = Some p -> exists h t,
       nth_error gs k = Some h /\ nth_error (s_tau s) k = Some t /\ hermitian h /\
       p = mexp (mscal (RtoC t * - Ci)%C h) /\ unitary N p) /\
    (isometry N q (s_initial s) -> isometry N q U).
Proof.
  intros EX W SP HD Ha F HH. pose proof (mat_routines N rt EX q s n m SP HD) as RO.
  pose proof (latest_shape s n m a ops Ha F) as Hl.
  destruct (session_evolution s n m W RO st a ops Ha F) as (d & d1 & b & E & E1 & Eg & Ep & _ & (d2 & E2) & _).
  destruct (mlens N rt EX q s n m SP W HD _ Hl) as [L1 L2].
  exists d, d1, d2, b, (final_of s (latest a ops)), (props_of s (latest a ops)), (gens_of s (latest a ops)). splits; auto.
  - intros k p Hp. assert (Hk : k < n) by (rewrite <- L1; apply nth_lt in Hp; auto).
    destruct (mslot N rt EX q s n m SP W HD _ k Hl Hk) as (dr & c & d0 & row & cs & t & g & _ & _ & _ & _ & _ & Et & _ & _ & _ & Eg' & Ep').
    pose proof (eq_trans (eq_sym Hp) Ep') as Q. injection Q as ->. pose proof (gen_matrix N rt q s SP _ k g Eg') as Hg.
    pose proof (gen_herm N rt q s SP _ k g HH Eg') as Hh. pose proof (ham_prop N rt EX q s SP t g HH Hg) as Hp'.
    exists g, t. splits; auto. refine (eq_ind_r (unitary N) _ Hp'). apply ham_unitary; auto.
  - intros HI. eapply final_iso; eauto.
Qed.
Theorem C16_diag_unitary N rt q (s : settings (MatAlg N rt)) n m st a ops :
  exact_routines N rt -> well_posed s n m -> sized_problem N rt q s ->
  shape n m a -> Forall (call_ok s n m) ops ->
  s_prop s = Diag -> hamiltonian_problem N rt s -> exact_eigh N rt -> unitary N (s_initial s) -> q = N ->
  exists d d1 d2 b U ps gs,
    session s st a ops = Ok d /\ compute_evolution d = Ok (d1, b) /\ full_evo d1 = Ok (d2, U) /\
    snd (get_prop d1) = map Some ps /\ snd (get_dyn_gen d1) = map Some gs /\
    length ps = n /\ length gs = n /\ unitary N U /\
    forall k p, nth_error ps k = Some p -> exists h t lam V,
       nth_error gs k = Some h /\ nth_error (s_tau s) k = Some t /\ r_eigh rt h = (lam, V) /\
       unitary N p /\ p = mexp (mscal (RtoC t * - Ci)%C h) /\
       p = mmul (mmul V (mdiag N (fun i => (cos (lam i * t), - sin (lam i * t))%R))) (mdag V).
Proof.
  intros EX W SP Ha F HDg HH EH UI ->. assert (HD : diag_suits N rt s) by (intros _; auto).
  pose proof (latest_shape s n m a ops Ha F) as Hl. pose proof (mat_routines N rt EX N s n m SP HD) as RO.
  destruct (session_evolution s n m W RO st a ops Ha F) as (d & d1 & b & E & E1 & Eg & Ep & _ & (d2 & E2) & _).
  destruct (mlens N rt EX N s n m SP W HD _ Hl) as [L1 L2].
  exists d, d1, d2, b, (final_of s (latest a ops)), (props_of s (latest a ops)), (gens_of s (latest a ops)). splits; auto.
  - pose proof UI as (S1 & P1 & U1 & U2). assert (HI : isometry N N (s_initial s)) by (split; [split|]; auto).
    assert (FU : Forall (unitary N) (props_of s (latest a ops))).
    { eapply props_unitary; eauto. }
    clear - FU UI. unfold final_of. revert UI. generalize (s_initial s). induction FU as [|p ps U FU IH]; intros x Hx; cbn; auto.
    apply IH. apply (unitary_mul N p x); auto.
  - intros k p Hp. assert (Hk : k < n) by (rewrite <- L1; apply nth_lt in Hp; auto).
    destruct (mslot N rt EX N s n m SP W HD _ k Hl Hk) as (dr & c & d0 & row & cs & t & g & _ & _ & _ & _ & _ & Et & _ & _ & _ & Eg' & Ep').
    pose proof (eq_trans (eq_sym Hp) Ep') as Q. injection Q as ->. pose proof (gen_matrix N rt N s SP _ k g Eg') as Hg.
    pose proof (gen_herm N rt N s SP _ k g HH Eg') as Hh. pose proof (ham_prop N rt EX N s SP t g HH Hg) as Hp'.
    pose proof (phased_spectral N rt N s SP t g HH EH Hg Hh) as PS. pose proof (prop_is N rt EX N s SP t g Hg) as Hp2.
    destruct (r_eigh rt g) as [lam V] eqn:Er. destruct PS as [UV PS].
    exists g, t, lam, V. splits; auto.
    + refine (eq_ind_r (unitary N) _ Hp'). apply ham_unitary; auto.
    + etransitivity; [exact Hp2|]. rewrite PS, mexp_spectral by auto. unfold spectral. f_equal. f_equal.
      apply (mat_ext N N); auto with mat. intros i j Hi Hj. rewrite !mdiag_ent by auto. destruct (i =? j); auto.
      rewrite cexpS_imag, cos_neg, sin_neg. auto.
Qed.
Example C16_case : let s := qubit sigma_x Diag FUnit PSU (1/10) in
  s_prop s = Diag /\ hamiltonian_problem 2 qubit_routines s /\ exact_eigh 2 qubit_routines /\ unitary 2 (s_initial s).
Proof. cbv zeta. splits; auto using qubit_ham, qubit_eigh. apply unitary_id. Qed.

(** ** C17 *)
Theorem C17_prop_gradient N rt q (s : settings (MatAlg N rt)) n m st a ops :
  exact_routines N rt -> well_posed s n m -> sized_problem N rt q s ->
  shape n m a -> Forall (call_ok s n m) ops ->
  s_prop s = Diag -> s_cache_pg s = true -> hamiltonian_problem N rt s -> exact_eigh N rt ->
  (* equal eigenvalues are allowed; different ones are not within the rounding precision *)
  diag_exact_at N rt s (latest a ops) ->
  exists d d1 b pg, session s st a ops = Ok d /\ compute_evolution d = Ok (d1, b) /\ snd (get_prop_grads d1) = Some pg /\
    (* slot k: duration t, Hamiltonian h, control j: cj *)
    forall k j t h cj, slot_at s n m (latest a ops) k j t h cj -> exists row p,
      nth_error pg k = Some row /\ nth_error row j = Some (Some p) /\
      der N N (fun u => mexp (mscal (RtoC t * - Ci)%C (madd h (mscal (RtoC u) cj)))) 0%R p.
Proof.
  intros EX W SP Ha F HDg HPg HH EH HE. assert (HD : diag_suits N rt s) by (intros _; auto).
  destruct (diag_grads N rt EX q s n m SP W HD st a ops HDg HPg Ha F) as (d & d1 & b & pg & E & E1 & E2 & Hpg).
  exists d, d1, b, pg. splits; auto. intros k j t h cj HS. destruct (Hpg k j t h cj HS) as (row & Q1 & Q2).
  exists row, (xgrad s t h cj). splits; auto. eapply (diag_grad_der N rt EX q s n m SP HD); eauto.
Qed.
Example C17_case : let s := qubit sigma_x Diag FUnit PSU (1/10) in
  s_prop s = Diag /\ s_cache_pg s = true /\ hamiltonian_problem 2 qubit_routines s /\ exact_eigh 2 qubit_routines /\
  diag_exact_at 2 qubit_routines s (latest qx_amps qx_ops) /\
  slot_at s 2 1 (latest qx_amps qx_ops) 1 0 (1/2)%R sigma_z sigma_x.
Proof.
  cbv zeta. splits; auto using qubit_ham, qubit_eigh.
  - apply zeros_diag. lra.
  - change (latest qx_amps qx_ops) with zeros. unfold slot_at. rewrite zeros_gens. splits; auto.
    + split; auto. repeat constructor.
    + eexists _, _. splits; reflexivity.
Qed.

(** Without that separation: in the eigenbasis of the Hamiltonian every entry
    is within 2 precision |t| of the derivative, relative to the control's. *)
Theorem C17_rounding_error N rt q (s : settings (MatAlg N rt)) n m st a ops :
  exact_routines N rt -> well_posed s n m -> sized_problem N rt q s ->
  shape n m a -> Forall (call_ok s n m) ops ->
  s_prop s = Diag -> s_cache_pg s = true -> hamiltonian_problem N rt s -> exact_eigh N rt -> (0 < s_prec s)%R ->
  exists d d1 b pg, session s st a ops = Ok d /\ compute_evolution d = Ok (d1, b) /\ snd (get_prop_grads d1) = Some pg /\
    forall k j t h cj, slot_at s n m (latest a ops) k j t h cj -> exists row p D,
      nth_error pg k = Some row /\ nth_error row j = Some (Some p) /\
      der N N (fun u => mexp (mscal (RtoC t * - Ci)%C (madd h (mscal (RtoC u) cj)))) 0%R D /\
      let V := snd (r_eigh rt h) in
      forall i l, i < N -> l < N ->
        (Cmod (ent (mmul (mmul (mdag V) (msub p D)) V) i l) <=
         2 * s_prec s * Rabs t * Cmod (ent (mmul (mmul (mdag V) cj) V) i l))%R.
Proof.
  intros EX W SP Ha F HDg HPg HH EH Hp. assert (HD : diag_suits N rt s) by (intros _; auto).
  destruct (diag_grads N rt EX q s n m SP W HD st a ops HDg HPg Ha F) as (d & d1 & b & pg & E & E1 & E2 & Hpg).
  exists d, d1, b, pg. splits; auto. intros k j t h cj HS. destruct (Hpg k j t h cj HS) as (row & Q1 & Q2).
  destruct (slot_matrices N rt q s n m SP _ k j t h cj HS) as [Mh Mc].
  assert (Hh : hermitian h) by (destruct HS as (_ & _ & Eg & _); eapply gen_herm; eauto).
  exists row, (xgrad s t h cj), (mdexp (phased s t h) (phased s t cj)). splits; auto.
  - eapply ham_der; eauto.
  - intros V i l Hi Hl. apply (diag_error N rt q s SP HD t h cj i l HDg Hp Mh Hh Mc Hi Hl).
Qed.

(** The separation is needed: whatever the rounding precision, there is a
    qubit whose propagator gradient is not the derivative. *)
Theorem C17_threshold_matters prec : (0 < prec)%R ->
  exists (s : settings QAlg) a d d1 b pg row p,
    s_prec s = prec /\ well_posed s 1 1 /\ sized_problem 2 qubit_routines 2 s /\ s_prop s = Diag /\
    hamiltonian_problem 2 qubit_routines s /\ exact_routines 2 qubit_routines /\ exact_eigh 2 qubit_routines /\
    session s false a [] = Ok d /\ compute_evolution d = Ok (d1, b) /\ snd (get_prop_grads d1) = Some pg /\
    nth_error pg 0 = Some row /\ nth_error row 0 = Some (Some p) /\
    exists t h cj, slot_at s 1 1 a 0 0 t h cj /\
      ~ der 2 2 (fun u => mexp (mscal (RtoC t * - Ci)%C (madd h (mscal (RtoC u) cj)))) 0%R p.
Proof. apply threshold. Qed.

(** Assumptions of all theorems of this file together (listed one by one in
    ASSUMPTIONS.txt). *)
Definition propsMatrix :=
  (@C11_trace_gradient,
   @C12_unitary_gradient,
   @C14_psu_target_phase,
   @C14_psu_evolution_phase,
   @C14_psu_normalised,
   @C14_su_normalised,
   @C15_trace_distance,
   @C58_unitary_evolution,
   @C16_diag_unitary,
   @C17_prop_gradient,
   @C17_rounding_error,
   @C17_threshold_matters).
Print Assumptions propsMatrix.
