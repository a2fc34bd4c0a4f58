(** Re-initialising an object: what works and what does not. *)
From Coq Require Import Reals Lra.
From Coquelicot Require Import Complex.
From RecordUpdate Require Import RecordUpdate.
From Verif.Model Require Import Base Dyn.
From Verif.Lib Require Import Lists.
From Verif.Spec Require Import Evolution History Scalar.
From Verif.Proofs Require Import DynInv DynRun DynHist DynHistory DynProps ScalarFacts DynMore.
Local Open Scope nat_scope.

Section Again.
Context {A : Alg} (s1 s2 : settings A) (n1 m1 n2 m2 : nat).
Hypothesis W1 : well_posed s1 n1 m1.
Hypothesis RO1 : routines_ok s1 n1 m1.
Hypothesis W2 : well_posed s2 n2 m2.
Hypothesis RO2 : routines_ok s2 n2 m2.
Hypothesis MF : may_follow s1 n1 m1 s2 n2 m2.

Lemma again_ok st a1 ops1 a2 ops2 :
  shape n1 m1 a1 -> Forall (call_ok s1 n1 m1) ops1 -> shape n2 m2 a2 -> Forall (call_ok s2 n2 m2) ops2 ->
  exists d1 d2, session s1 st a1 ops1 = Ok d1 /\ again s2 a2 ops2 d1 = Ok d2 /\
                Good s2 n2 m2 (latest a2 ops2) d2.
Proof.
  intros Ha1 F1 Ha2 F2.
  destruct (session_ok s1 n1 m1 W1 RO1 st a1 ops1 Ha1 F1) as (d1 & E1 & G1 & _).
  destruct G1 as (dr1 & c1 & Hdr1 & Hdrf1 & Hc1 & Hcf1 & I1).
  destruct W2 as [Htau Hpos (dr & Hdr & Hdrf) (c & Hc & Hcf) Hm Hdiagc].
  destruct RO2 as (Hfr & Haug & Hdiag).
  assert (Kc : is_carr c = is_carr c1).
  { pose proof (mf_kind _ _ _ _ _ _ MF) as K. unfold time_dep_ctrls in K. rewrite Hc, Hc1 in K.
    destruct c, c1; cbn in *; congruence. }
  assert (R : reinit_ok s2 n2 m2 c (d1 <| d_set := s2 |>)).
  { pose proof (inv_st _ _ _ _ _ _ _ I1) as St. destruct MF, St. subst m2.
    constructor; cbn; auto.
    - congruence.
    - intros _. congruence.
    - rewrite settled_cache_ph. intros Hp. fold (phase_cached s2) in Hp.
      destruct mf_phase as [|(P1 & P2)]; [congruence|].
      assert (Ep : s_cache_ph (settled s1) = false) by (rewrite settled_cache_ph; auto).
      rewrite Ep in *. split; auto. destruct P2; auto. destruct st_pdg; auto. congruence.
    - intros _ l Hl. specialize (st_dcur l Hl). lia.
    - intros HD HA l Hl. specialize (st_eadj (mf_adj HD HA) l Hl). lia. }
  assert (Es : d_set (d1 <| d_set := s2 |>) = s2) by reflexivity.
  destruct (init_ok s2 n2 m2 dr c Htau Hpos Hdr Hdrf Hc Hcf Hm Hdiagc Hfr Haug Hdiag a2 (d1 <| d_set := s2 |>) Es Ha2 R)
    as (d3 & E3 & I3 & _).
  destruct (run_ok s2 n2 m2 dr c Htau Hpos Hdr Hdrf Hc Hcf Hm Hdiagc Hfr Haug Hdiag ops2 a2 d3 F2 I3)
    as (d4 & E4 & I4 & _).
  exists d1, d4; splits; auto.
  - unfold again. rewrite E3; cbn [bind]; auto.
  - exists dr, c; splits; auto.
Qed.
End Again.

(** ** Witnesses *)
Local Open Scope R_scope.

(** The one-slot problem over any algebra. *)
Definition one_slot {A : Alg} (cl : dclass) (dr dh : option (drift A)) (cs : list (Op A)) (ini targ : Op A)
  (ph : option (phase A)) (cache_ph : bool) (t : R) (f : fidkind) : settings A :=
  {| s_class := cl; s_drift := dr; s_ctrls := Some (CList cs); s_drift_ham := dh; s_ctrl_ham := None;
     s_initial := ini; s_target := targ; s_tau := [t]; s_phase := ph; s_phapp := PreOp;
     s_dtype := DNdarray; s_cache_ph := cache_ph; s_cache_pg := false; s_cache_adj := true; s_prec := 0;
     s_prop := Approx; s_fid := f; s_phopt := SU; s_scale := Some 1; s_dim := 1 |}.

Ltac norm t :=
  eval cbv -[RtoC Rplus Rmult Rminus Rdiv Ropp Rinv Rabs Re Im Cmod Cmult Cplus INR IZR sqrt Req_EM_T
  otr omul oadd osub oscale odag oinv oexpm ofrechet oaug oblk00 oblk01 oeigh odiag ohad osquare Op] in t.
(** Supplies the state a computation ends in. *)
Ltac give_state t := let x := norm t in match x with Ok ?d => exists d end.
Ltac give_fst t := let x := norm t in match x with Ok (?d, _) => exists d end.

Ltac finish := reflexivity.
Ltac next := match goal with
  | |- exists d, ?x = Ok _ /\ _ => give_state x; split; [reflexivity|]
  | |- exists d, ?x = Ok (_, _) => give_fst x; reflexivity
  end.

(** Two controls instead of one: the second one is ignored. *)
Lemma again_num_ctrls (A : Alg) (o c1 c2 i t : Op A) :
  let s1 := one_slot GenMat (Some (DConst o)) None [c1] i t None false 1 FTrace in
  let s2 := one_slot GenMat (Some (DConst o)) None [c1; c2] i t None false 1 FTrace in
  exists d1, session s1 false [[0]] [GetFidErr] = Ok d1 /\
  exists d2, again s2 [[0; 1]] [] d1 = Ok d2 /\
  exists d3, get_fid_err d2 = Ok (d3, trace_dist s1 [[0]]).
Proof. cbv zeta. repeat next. Qed.

(** A new drift Hamiltonian assigned to an object that was initialised through
    drift_ham: ignored. *)
Lemma again_drift_ham (A : Alg) (o o2 c i t : Op A) :
  let s1 := one_slot Unitary None (Some (DConst o)) [c] i t None false 1 FTrace in
  exists d1, session s1 false [[0]] [GetFidErr] = Ok d1 /\
  exists d2, initialize_controls [[0]] (d1 <| d_set; s_drift_ham := Some (DConst o2) |>) = Ok d2 /\
  exists d3, get_fid_err d2 = Ok (d3, trace_dist s1 [[0]]).
Proof. cbv zeta. repeat next. Qed.

(** Caching of the phased generator switched off together with a new drift:
    the propagators are computed from the old cached generators. *)
Lemma again_cache_off (A : Alg) (o o2 c i t : Op A) :
  let s1 := one_slot GenMat (Some (DConst o)) None [c] i t (Some (PhNum (RtoC 1))) true 1 FTrace in
  let s2 := one_slot GenMat (Some (DConst o2)) None [c] i t (Some (PhNum (RtoC 1))) false 1 FTrace in
  exists d1, session s1 false [[0]] [GetFidErr] = Ok d1 /\
  exists d2, again s2 [[0]] [] d1 = Ok d2 /\
  exists d3, get_fid_err d2 = Ok (d3, trace_dist s1 [[0]]).
Proof. cbv zeta. repeat next. Qed.

(** Phase option assigned after a query: the old value is returned. *)
Lemma phase_option_stale (A : Alg) (o c i t : Op A) :
  let s1 := one_slot Unitary (Some (DConst o)) None [c] i t None false 1 FUnit in
  exists d1, session s1 false [[0]] [GetFidErr] = Ok d1 /\
  exists d3, get_fid_err (set_phase_option PSU d1) = Ok (d3, fid_err_of s1 [[0]]).
Proof.
  cbv zeta. next.
  match goal with |- exists d, ?x = _ => let y := norm x in
    match y with Ok (?d, ?v) => exists d; transitivity (Ok (d, v)); [reflexivity|] end end.
  f_equal. f_equal.
  match goal with |- _ = ?v => let y := norm v in change v with y end.
  match goal with |- context [Re ?z / 1] => replace (Re z / 1) with (Re z) by field end. reflexivity.
Qed.

(** Duration assigned after a query. *)
Lemma tau_stale (A : Alg) (o c i t : Op A) :
  let s1 := one_slot GenMat (Some (DConst o)) None [c] i t None false 1 FTrace in
  exists d1, session s1 false [[0]] [GetFidErr] = Ok d1 /\
  exists d3, get_fid_err (set_tau [2] d1) = Ok (d3, trace_dist s1 [[0]]).
Proof. cbv zeta. repeat next. Qed.

(** The stored array modified in place and passed again. *)
Lemma in_place_stale (A : Alg) (o c i t : Op A) :
  let s1 := one_slot GenMat (Some (DConst o)) None [c] i t None false 1 FTrace in
  exists d1, session s1 false [[0]] [GetFidErr] = Ok d1 /\
  exists d2, update_ctrl_amps [[1]] (write_stored_amps [[1]] d1) = Ok d2 /\
  exists d3, get_fid_err d2 = Ok (d3, trace_dist s1 [[0]]).
Proof.
  cbv zeta. next.
  assert (Sh : shape 1 1 [[1]]) by (split; auto).
  match goal with |- exists d, update_ctrl_amps ?a ?x = _ /\ _ =>
    destruct (update_exact x 1 1 a a eq_refl Sh Sh) as (d2 & E & _ & H & _);
    exists x; split; [rewrite <- (H eq_refl); rewrite (H eq_refl) at 1; exact E|] end.
  next.
Qed.

(** *** Values on the one-dimensional system *)
Definition c0 : Op ScalarAlg := RtoC 0.
Definition c1 : Op ScalarAlg := RtoC 1.

Lemma dist_val (s : settings ScalarAlg) a x :
  s_target s = RtoC 1 -> s_scale s = Some 1 -> final_of s a = RtoC (exp x) ->
  trace_dist s a = (1 - exp x) * (1 - exp x).
Proof.
  intros Ht Hs Hf. unfold trace_dist, trace_scale. rewrite Ht, Hs, Hf. cbn.
  unfold Re, Cmult, Cconj, Cminus, Cplus, Copp, RtoC; cbn. ring.
Qed.

Lemma exp_sq_ne x y : x <> y -> 0 <= x -> 0 <= y -> (1 - exp x) * (1 - exp x) <> (1 - exp y) * (1 - exp y).
Proof.
  intros N Hx Hy E.
  assert (P : forall z, 0 <= z -> 1 <= exp z).
  { intros z [Hz|<-]; [left; rewrite <- exp_0; apply exp_increasing; auto|rewrite exp_0; lra]. }
  pose proof (P x Hx); pose proof (P y Hy).
  assert (F : (exp x - exp y) * (exp x + exp y - 2) = 0) by lra.
  apply Rmult_integral in F. destruct F as [F|F].
  - apply N, exp_inv; lra.
  - assert (exp x = exp y) by lra. apply N, exp_inv; auto.
Qed.

(** The final operator of a one-slot problem whose weighted generator is the
    real number [x]. *)
Lemma final_one (s : settings ScalarAlg) a t g x :
  s_tau s = [t] -> s_initial s = c1 -> gens_of s a = [g] ->
  Cmult (RtoC t) (with_phase s g) = RtoC x -> final_of s a = RtoC (exp x).
Proof.
  intros Ht Hi Hg Hx. unfold final_of, props_of, propagators. rewrite Hg, Ht, Hi.
  cbn [map2 evolve fold_left]. unfold propagator. cbn [oexpm oscale omul ScalarAlg].
  rewrite Hx, cexp_real. apply Cmult_1_r.
Qed.

Ltac dist x := apply (dist_val _ _ x); [reflexivity|reflexivity|];
  eapply final_one; [reflexivity|reflexivity|reflexivity|];
  cbn; unfold c0, c1, Cmult, Cplus, RtoC; cbn; f_equal; ring.

Definition gen_ctrl cs : settings ScalarAlg :=
  one_slot GenMat (Some (DConst c0)) None cs c1 c1 None false 1 FTrace.
Lemma gen_ctrl_1 : trace_dist (gen_ctrl [c1]) [[0]] = (1 - exp 0) * (1 - exp 0).
Proof. dist 0. Qed.
Lemma gen_ctrl_1' : trace_dist (gen_ctrl [c1]) [[1]] = (1 - exp 1) * (1 - exp 1).
Proof. dist 1. Qed.
Lemma gen_ctrl_2 : trace_dist (gen_ctrl [c1; c1]) [[0; 1]] = (1 - exp 1) * (1 - exp 1).
Proof. dist 1. Qed.

Definition ham_drift dh : settings ScalarAlg :=
  one_slot Unitary None (Some (DConst dh)) [c1] c1 c1 None false 1 FTrace.
Lemma ham_drift_0 : trace_dist (ham_drift c0) [[0]] = (1 - exp 0) * (1 - exp 0).
Proof. dist 0. Qed.
Lemma ham_drift_1 : trace_dist (ham_drift c1) [[0]] = (1 - exp 1) * (1 - exp 1).
Proof. dist 1. Qed.

Definition phased_drift dr cache : settings ScalarAlg :=
  one_slot GenMat (Some (DConst dr)) None [c1] c1 c1 (Some (PhNum (RtoC 1) : phase ScalarAlg)) cache 1 FTrace.
Lemma phased_drift_0 b : trace_dist (phased_drift c0 b) [[0]] = (1 - exp 0) * (1 - exp 0).
Proof. dist 0. Qed.
Lemma phased_drift_1 b : trace_dist (phased_drift c1 b) [[0]] = (1 - exp 1) * (1 - exp 1).
Proof. dist 1. Qed.

Definition slot_time t : settings ScalarAlg :=
  one_slot GenMat (Some (DConst c1)) None [c1] c1 c1 None false t FTrace.
Lemma slot_time_v t : trace_dist (slot_time t) [[0]] = (1 - exp t) * (1 - exp t).
Proof. dist t. Qed.

(** Overlap i with the target: SU and PSU fidelities differ. *)
Definition turned (po : phopt) : settings ScalarAlg :=
  (one_slot Unitary (Some (DConst c0)) None [c1] (Ci : Op ScalarAlg) c1 None false 1 FUnit) <| s_phopt := po |>.
Lemma turned_overlap po : overlap (turned po) [[0]] = Ci.
Proof.
  assert (F : final_of (turned po) [[0]] = Ci).
  { unfold final_of, props_of, propagators. change (gens_of (turned po) [[0]]) with [Cplus c0 (Cmult (RtoC 0) c1)].
    change (s_tau (turned po)) with [1]. change (s_initial (turned po)) with Ci.
    cbn [map2 evolve fold_left]. unfold propagator. cbn [oexpm oscale omul ScalarAlg].
    replace (Cmult (RtoC 1) (with_phase (turned po) (Cplus c0 (Cmult (RtoC 0) c1)))) with (RtoC 0)
      by (cbn; unfold c0, c1, Cmult, Cplus, RtoC; cbn; f_equal; ring).
    rewrite cexp_0. apply Cmult_1_l. }
  unfold overlap. rewrite F. cbn. unfold c1, Cmult, Cconj, Ci, RtoC; cbn. f_equal; ring.
Qed.
Lemma turned_norm po : target_norm (turned po) = RtoC 1.
Proof. unfold target_norm; cbn. unfold c1, Cmult, Cconj, RtoC; cbn. f_equal; ring. Qed.
Lemma turned_SU : fid_err_of (turned SU) [[0]] = 1.
Proof.
  unfold fid_err_of, fidelity_of. rewrite turned_overlap, turned_norm. cbn.
  unfold Re, Ci, RtoC; cbn. replace (1 - 0 / 1) with 1 by field. apply Rabs_R1.
Qed.
Lemma turned_PSU : fid_err_of (turned PSU) [[0]] = 0.
Proof.
  unfold fid_err_of, fidelity_of. rewrite turned_overlap, turned_norm. cbn.
  rewrite Cmod_1. replace (Cmod Ci) with 1.
  - replace (1 - 1 / 1) with 0 by field. apply Rabs_R0.
  - unfold Cmod, Ci; cbn. replace (0 * (0 * 1) + 1 * (1 * 1)) with 1 by ring. symmetry; apply sqrt_1.
Qed.

Lemma again_fresh {A : Alg} (s1 s2 : settings A) n1 m1 n2 m2 st st' a1 ops1 a2 ops2 :
  well_posed s1 n1 m1 -> routines_ok s1 n1 m1 -> well_posed s2 n2 m2 -> routines_ok s2 n2 m2 ->
  may_follow s1 n1 m1 s2 n2 m2 ->
  shape n1 m1 a1 -> Forall (call_ok s1 n1 m1) ops1 -> shape n2 m2 a2 -> Forall (call_ok s2 n2 m2) ops2 ->
  exists d1 d2 f, session s1 st a1 ops1 = Ok d1 /\ again s2 a2 ops2 d1 = Ok d2 /\
    session s2 st' a2 ops2 = Ok f /\
    (exists x y v, get_fid_err d2 = Ok (x, v) /\ get_fid_err f = Ok (y, v)) /\
    (s_prop s2 <> Approx ->
     exists x y g, get_fid_err_gradient d2 = Ok (x, g) /\ get_fid_err_gradient f = Ok (y, g)) /\
    (exists x y b b', compute_evolution d2 = Ok (x, b) /\ compute_evolution f = Ok (y, b') /\
       snd (get_dyn_gen x) = snd (get_dyn_gen y) /\
       snd (get_prop x) = snd (get_prop y) /\
       snd (get_fwd_evo x) = snd (get_fwd_evo y)).
Proof.
  intros W1 RO1 W2 RO2 MF Ha1 F1 Ha2 F2.
  destruct (again_ok s1 s2 n1 m1 n2 m2 W1 RO1 W2 RO2 MF st a1 ops1 a2 ops2 Ha1 F1 Ha2 F2) as (d1 & d2 & E1 & E2 & G).
  destruct (session_ok s2 n2 m2 W2 RO2 st' a2 ops2 Ha2 F2) as (f & Ef & Gf & _).
  exists d1, d2, f; splits; auto.
  - destruct (good_err s2 n2 m2 W2 RO2 _ _ G) as (x & Ex & _).
    destruct (good_err s2 n2 m2 W2 RO2 _ _ Gf) as (y & Ey & _). eexists x, y, _; split; eauto.
  - intros HA. destruct (good_gradient s2 n2 m2 W2 RO2 _ _ HA G) as (x & g & Ex & _ & Hg & _).
    destruct (good_gradient s2 n2 m2 W2 RO2 _ _ HA Gf) as (y & g' & Ey & _ & Hg' & _).
    exists x, y, g; split; auto. rewrite (grad_is_unique _ _ _ _ _ Hg Hg'); auto.
  - destruct (good_evo s2 n2 m2 W2 RO2 _ _ G) as (x & b & Ex & Gx & Cx & _).
    destruct (good_evo s2 n2 m2 W2 RO2 _ _ Gf) as (y & b' & Ey & Gy & Cy & _).
    exists x, y, b, b'; splits; auto.
    + rewrite (good_dyn_gen s2 n2 m2 W2 RO2 _ _ Gx Cx), (good_dyn_gen s2 n2 m2 W2 RO2 _ _ Gy Cy); auto.
    + rewrite (good_prop s2 n2 m2 W2 RO2 _ _ Gx Cx), (good_prop s2 n2 m2 W2 RO2 _ _ Gy Cy); auto.
    + rewrite (good_fwd s2 n2 m2 _ _ Gx Cx), (good_fwd s2 n2 m2 _ _ Gy Cy); auto.
Qed.
