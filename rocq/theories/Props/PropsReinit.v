(** Properties C04 and C10: assignments after initialisation, and using one
    object for two problems in turn.  Both fail in the cases shown by the
    [_refuted] theorems; the [_partial] theorems say when they hold. *)
From Coq Require Import Reals Lra.
From Coquelicot Require Import Complex.
From RecordUpdate Require Import RecordUpdate.
From Verif.Model Require Import Base Dyn.
From Verif.Lib Require Import Lists.
From Verif.Spec Require Import Evolution History Scalar.
From Verif.Proofs Require Import DynInv DynRun DynHist DynHistory DynProps ScalarFacts DynMore DynAgain.
Local Open Scope R_scope.

(** ** C04 *)

(** Full statement: after assigning phase_option the next query returns the
    value for the new option.  It returns the cached old one. *)
Theorem C04_phase_option_refuted :
  exists (A : Alg) (s : settings A) a d d1 v,
    session s false a [GetFidErr] = Ok d /\
    get_fid_err (set_phase_option PSU d) = Ok (d1, v) /\
    v <> fid_err_of (s <| s_phopt := PSU |>) a.
Proof.
  destruct (phase_option_stale ScalarAlg c0 c1 Ci c1) as (d1 & E1 & d3 & E3).
  exists ScalarAlg, (turned SU), [[0]], d1, d3, 1. split; [exact E1|split].
  - rewrite <- turned_SU. exact E3.
  - change (turned SU <| s_phopt := PSU |>) with (turned PSU). rewrite turned_PSU. lra.
Qed.

(** Assigning tau (and so evo_time, num_tslots) after a query. *)
Theorem C04_tau_refuted :
  exists (A : Alg) (s : settings A) a tau d d1 v,
    session s false a [GetFidErr] = Ok d /\
    get_fid_err (set_tau tau d) = Ok (d1, v) /\
    v <> fid_err_of (s <| s_tau := tau |>) a.
Proof.
  destruct (tau_stale ScalarAlg c1 c1 c1 c1) as (d1 & E1 & d3 & E3).
  exists ScalarAlg, (slot_time 1), [[0]], [2], d1, d3, (trace_dist (slot_time 1) [[0]]).
  split; [exact E1|split; [exact E3|]].
  change (fid_err_of (slot_time 1 <| s_tau := [2] |>) [[0]]) with (trace_dist (slot_time 2) [[0]]).
  rewrite !slot_time_v. apply exp_sq_ne; lra.
Qed.

(** Modifying the array passed to update_ctrl_amps in place and passing it
    again: no change is detected. *)
Theorem C04_in_place_refuted :
  exists (A : Alg) (s : settings A) a b d d1 d2 v,
    session s false a [GetFidErr] = Ok d /\
    update_ctrl_amps b (write_stored_amps b d) = Ok d1 /\
    get_fid_err d1 = Ok (d2, v) /\
    v <> fid_err_of s b.
Proof.
  destruct (in_place_stale ScalarAlg c0 c1 c1 c1) as (d1 & E1 & d2 & E2 & d3 & E3).
  exists ScalarAlg, (gen_ctrl [c1]), [[0]], [[1]], d1, d2, d3, (trace_dist (gen_ctrl [c1]) [[0]]).
  split; [exact E1|split; [exact E2|split; [exact E3|]]].
  change (fid_err_of (gen_ctrl [c1]) [[1]]) with (trace_dist (gen_ctrl [c1]) [[1]]).
  rewrite gen_ctrl_1, gen_ctrl_1'. apply exp_sq_ne; lra.
Qed.

(** What does hold: after assigning the phase option or (not more) slot
    durations, initialising again gives the value for the new setting. *)
Theorem C04_assign_and_initialise_partial {A : Alg} (s : settings A) n m st a ops po tau :
  well_posed s n m -> routines_ok s n m -> shape n m a -> Forall (call_ok s n m) ops ->
  let s' := s <| s_phopt := po |> <| s_tau := tau |> in
  (0 < length tau <= n)%nat -> well_posed s' (length tau) m -> routines_ok s' (length tau) m ->
  forall b, shape (length tau) m b ->
  exists d d1 d2, session s st a ops = Ok d /\ again s' b [] d = Ok d1 /\
                  get_fid_err d1 = Ok (d2, fid_err_of s' b).
Proof.
  intros W RO Ha F s' Ht W2 RO2 b Hb.
  assert (MF : may_follow s n m s' (length tau) m).
  { constructor; try apply Ht; auto.
    change (phase_cached s') with (phase_cached s). change (s_phase s') with (s_phase s).
    destruct (phase_cached s); auto. right; split; auto. destruct (s_phase s); [right; discriminate|auto]. }
  destruct (again_ok s s' n m (length tau) m W RO W2 RO2 MF st a ops b [] Ha F Hb (Forall_nil _))
    as (d & d1 & E & E1 & G).
  destruct (good_err s' _ _ W2 RO2 _ _ G) as (d2 & E2 & _). exists d, d1, d2; auto.
Qed.

Example C04_partial_case :
  let s := sc_settings Unitary 3 (Some (PhNum (- Ci)%C : phase ScalarAlg)) Frechet FUnit in
  let s' := s <| s_phopt := PSU |> <| s_tau := [1; 5] |> in
  well_posed s 3 1 /\ routines_ok s 3 1 /\ well_posed s' 2 1 /\ routines_ok s' 2 1.
Proof.
  cbv zeta; splits.
  - apply sc_well_posed; [lia|discriminate].
  - apply sc_routines; discriminate.
  - destruct (sc_well_posed Unitary 2 (Some (PhNum (- Ci)%C : phase ScalarAlg)) Frechet FUnit) as [? ? ? ? ? ?];
      [lia|discriminate|]. constructor; auto.
  - unfold routines_ok; splits; try discriminate. intros; apply sc_frechet.
Qed.

(** ** C10 *)
Lemma wp_one {A} cl dr cs ini targ ph c t f : cs <> [] ->
  well_posed (one_slot (A:=A) cl (Some (DConst dr)) None cs ini targ ph c t f) 1 (length cs).
Proof.
  intros Hc. constructor.
  - reflexivity.
  - lia.
  - exists (DConst dr). destruct cl; split; auto; exact I.
  - exists (CList cs). destruct cl; split; auto; reflexivity.
  - intros _. destruct cs; cbn; [congruence|lia].
  - intros H; discriminate H.
Qed.

(** An object that solved [s1] and is then given [s2] with the same number
    and kind of controls, not more slots, and compatible phase caching
    ([may_follow]) behaves as a new object given [s2]. *)
Theorem C10_reinitialise_partial {A : Alg} (s1 s2 : settings A) n1 m1 n2 m2 st st' a1 ops1 a2 ops2 :
  well_posed s1 n1 m1 -> routines_ok s1 n1 m1 -> well_posed s2 n2 m2 -> routines_ok s2 n2 m2 ->
  may_follow s1 n1 m1 s2 n2 m2 ->
  shape n1 m1 a1 -> Forall (call_ok s1 n1 m1) ops1 -> shape n2 m2 a2 -> Forall (call_ok s2 n2 m2) ops2 ->
  exists d1 d2 f, session s1 st a1 ops1 = Ok d1 /\ again s2 a2 ops2 d1 = Ok d2 /\
    session s2 st' a2 ops2 = Ok f /\
    (exists x y v, get_fid_err d2 = Ok (x, v) /\ get_fid_err f = Ok (y, v)) /\
    (s_prop s2 <> Approx ->
     exists x y g, get_fid_err_gradient d2 = Ok (x, g) /\ get_fid_err_gradient f = Ok (y, g)) /\
    (exists x y b b', compute_evolution d2 = Ok (x, b) /\ compute_evolution f = Ok (y, b') /\
       snd (get_dyn_gen x) = snd (get_dyn_gen y) /\
       snd (get_prop x) = snd (get_prop y) /\
       snd (get_fwd_evo x) = snd (get_fwd_evo y)).
Proof. apply again_fresh. Qed.

Example C10_partial_case :
  let s1 := sc_settings GenMat 3 None Frechet FTrace in
  let s2 := sc_settings GenMat 2 None Frechet FTrace <| s_target := (RtoC 5 : Op ScalarAlg) |> in
  well_posed s1 3 1 /\ routines_ok s1 3 1 /\ well_posed s2 2 1 /\ routines_ok s2 2 1 /\
  may_follow s1 3 1 s2 2 1.
Proof.
  cbv zeta; splits.
  - apply sc_well_posed; [lia|discriminate].
  - apply sc_routines; discriminate.
  - destruct (sc_well_posed GenMat 2 None Frechet FTrace) as [? ? ? ? ? ?]; [lia|discriminate|]. constructor; auto.
  - unfold routines_ok; splits; try discriminate. intros; apply sc_frechet.
  - constructor; cbn; auto; try lia.
Qed.

(** A second control added before the second initialisation is ignored. *)
Theorem C10_num_ctrls_refuted :
  exists (A : Alg) (s1 s2 : settings A) a1 a2 d1 d2 d3 v,
    well_posed s1 1 1 /\ well_posed s2 1 2 /\ shape 1 2 a2 /\
    session s1 false a1 [GetFidErr] = Ok d1 /\ again s2 a2 [] d1 = Ok d2 /\
    get_fid_err d2 = Ok (d3, v) /\ v <> fid_err_of s2 a2.
Proof.
  destruct (again_num_ctrls ScalarAlg c0 c1 c1 c1 c1) as (d1 & E1 & d2 & E2 & d3 & E3).
  exists ScalarAlg, (gen_ctrl [c1]), (gen_ctrl [c1; c1]), [[0]], [[0; 1]], d1, d2, d3, (trace_dist (gen_ctrl [c1]) [[0]]).
  splits; [| | |exact E1|exact E2|exact E3|].
  - apply wp_one; discriminate.
  - apply wp_one; discriminate.
  - split; auto.
  - change (fid_err_of (gen_ctrl [c1; c1]) [[0; 1]]) with (trace_dist (gen_ctrl [c1; c1]) [[0; 1]]).
    rewrite gen_ctrl_1, gen_ctrl_2. apply exp_sq_ne; lra.
Qed.

(** A new drift_ham assigned to a Unitary object that was set up through
    drift_ham is ignored. *)
Theorem C10_drift_ham_refuted :
  exists (A : Alg) (s : settings A) h a d1 d2 d3 v,
    s_class s = Unitary /\ s_drift s = None /\
    session s false a [GetFidErr] = Ok d1 /\
    initialize_controls a (d1 <| d_set; s_drift_ham := Some (DConst h) |>) = Ok d2 /\
    get_fid_err d2 = Ok (d3, v) /\
    v <> fid_err_of (s <| s_drift_ham := Some (DConst h) |>) a.
Proof.
  destruct (again_drift_ham ScalarAlg c0 c1 c1 c1 c1) as (d1 & E1 & d2 & E2 & d3 & E3).
  exists ScalarAlg, (ham_drift c0), c1, [[0]], d1, d2, d3, (trace_dist (ham_drift c0) [[0]]).
  splits; [reflexivity|reflexivity|exact E1|exact E2|exact E3|].
  change (fid_err_of (ham_drift c0 <| s_drift_ham := Some (DConst c1) |>) [[0]]) with (trace_dist (ham_drift c1) [[0]]).
  rewrite ham_drift_0, ham_drift_1. apply exp_sq_ne; lra.
Qed.

(** Switching cache_phased_dyn_gen off together with a new drift: the
    generators cached for the old drift are exponentiated. *)
Theorem C10_cache_off_refuted :
  exists (A : Alg) (s1 s2 : settings A) a d1 d2 d3 v,
    s_cache_ph s1 = true /\ s_cache_ph s2 = false /\
    well_posed s1 1 1 /\ well_posed s2 1 1 /\
    session s1 false a [GetFidErr] = Ok d1 /\ again s2 a [] d1 = Ok d2 /\
    get_fid_err d2 = Ok (d3, v) /\ v <> fid_err_of s2 a.
Proof.
  destruct (again_cache_off ScalarAlg c0 c1 c1 c1 c1) as (d1 & E1 & d2 & E2 & d3 & E3).
  exists ScalarAlg, (phased_drift c0 true), (phased_drift c1 false), [[0]], d1, d2, d3, (trace_dist (phased_drift c0 true) [[0]]).
  splits; [reflexivity|reflexivity| | |exact E1|exact E2|exact E3|].
  - apply wp_one; discriminate.
  - apply wp_one; discriminate.
  - change (fid_err_of (phased_drift c1 false) [[0]]) with (trace_dist (phased_drift c1 false) [[0]]).
    rewrite phased_drift_0, phased_drift_1. apply exp_sq_ne; lra.
Qed.

(** Flags derived from one memory_optimization level stay when the level is
    changed and the object is initialised again. *)
Theorem C10_memory_level_refuted :
  exists l1 l2, let '(ph, pg, adj, sp) := mem_opt l1 None None None None in
    mem_opt l2 (Some ph) (Some pg) (Some adj) (Some sp) <> mem_opt l2 None None None None.
Proof. exists 0%Z, 1%Z. cbv. discriminate. Qed.

(** Assumptions of all theorems of this file together (listed one by one in
    ASSUMPTIONS.txt). *)
Definition propsReinit :=
  (@C04_phase_option_refuted,
   @C04_tau_refuted,
   @C04_in_place_refuted,
   @C04_assign_and_initialise_partial,
   @C10_reinitialise_partial,
   @C10_num_ctrls_refuted,
   @C10_drift_ham_refuted,
   @C10_cache_off_refuted,
   @C10_memory_level_refuted).
Print Assumptions propsReinit.
