(** Property C41: grape_unitary_adaptive.

    [best_so_far log n] is the largest of 0 and the first n logged overlaps.
    The full property asks that the returned pulse, Hamiltonian and unitary are
    those of the best accepted iterate.  That fails (C41_unitary_refuted,
    C41_pulse_refuted); what holds is that no worse pulses are accepted. *)
From Coq Require Import Reals Lra.
From Coquelicot Require Import Coquelicot.
From Verif.Model Require Import Base Dyn Grape.
From Verif.Lib Require Import Lists Csum Mat MExp MCalc MDiag.
From Verif.Spec Require Import Evolution MatAlg Grapes.
From Verif.Proofs Require Import MatProps GrapeFacts GrapeMat GrapeLevel AdaptFacts AdaptLevel.
Local Open Scope nat_scope.
Set Bullet Behavior "Strict Subproofs".

(** Figure of merit of a pulse. *)
Definition merit (N : nat) (g : gargs mat) (dt : R) (p : pulse) : R :=
  figure N (g_ps g) (g_U g) (pulse_unitary N (g_H0 g) (g_H g) dt (length (g_times g)) p).

Section Mat.
Context (N : nat) (rt : routines).
Hypothesis EX : forall x, sized N N x -> r_expm rt x = mexp x.
Notation A := (MatAlg N rt).
Context (g : gargs mat).
Hypothesis MA : matrix_args N g.

Lemma score_figure w : sized N N w -> score (A := A) N g w = figure N (g_ps g) (g_U g) w.
Proof.
  intros Sw. destruct MA as [[SU PU] _ _ _].
  assert (E : goverlap (A := A) N w (g_U g) = Cconj (trace_overlap N (g_U g) w)).
  { unfold goverlap, trace_overlap. change (omul A) with mmul. change (odag A) with mdag. change (otr A) with mtr.
    assert (E1 : mmul (mdag w) (g_U g) = mdag (mmul (mdag (g_U g)) w)).
    { rewrite (mdag_mul N N N) by auto with mat. rewrite (mdag_dag N N) by auto. reflexivity. }
    change (Cdiv (mtr (mmul (mdag w) (g_U g))) (RtoC (INR N)) = Cconj (mtr (mmul (mdag (g_U g)) w) / RtoC (INR N))%C).
    rewrite E1, (conj_tr N) by eauto with mat.
    destruct (mtr (mmul (mdag (g_U g)) w)) as [a b]. unfold Cdiv, Cinv, Cmult, Cconj, RtoC. apply C_eq; cbn; unfold Rdiv; ring. }
  unfold score, figure, fidelity. change (g_ps (Op := Op A) g) with (g_ps (Op := mat) g).
  change (g_U (Op := Op A) g) with (g_U (Op := mat) g). rewrite E. destruct (g_ps g); [reflexivity|].
  f_equal. apply Cmod_conj.
Qed.
Lemma final_is dt u : shape (length (g_H g)) (length (g_times g)) u ->
  final_unitary (A := A) (mid N) g (length (g_times g)) dt u = Ok (pulse_unitary N (g_H0 g) (g_H g) dt (length (g_times g)) u).
Proof.
  intros Su. unfold final_unitary.
  assert (Eg : mkArgs (g_U g) (g_H0 g) (g_H g) (g_R g) (g_times g) (g_eps g) (g_start g) (g_limits g) None (g_alpha g) (g_beta g) (g_ps g) = g).
  { pose proof (ma_interp _ _ MA) as EI. destruct g; cbn in *. now rewrite EI. }
  change (bind (slot_unitaries (A := A) (mkArgs (g_U g) (g_H0 g) (g_H g) (g_R g) (g_times g) (g_eps g) (g_start g) (g_limits g) None (g_alpha g) (g_beta g) (g_ps g)) (length (g_times g)) dt u)
    (fun Us => for_each (range (length (g_times g) - 1)) (fun m uf => um <- get Us m;; Ok (omul A um uf)) (mid N : Op A)) =
    Ok (pulse_unitary N (g_H0 g) (g_H g) dt (length (g_times g)) u)).
  rewrite Eg. pose proof (slots_ok N rt EX g MA dt u Su) as Es.
  refine (eq_trans (f_equal (fun r => bind r _) Es) _). cbn [bind].
  destruct (for_range (S := Op A) (fun k uf => uf = ordered N (slot_propagator N (g_H0 g) (g_H g) dt u) 0 k)
    (fun m uf => um <- get (map (slot_propagator N (g_H0 g) (g_H g) dt u) (range (length (g_times g) - 1))) m;; Ok (omul A um uf))
    (length (g_times g) - 1) (mid N)) as (x & Ex & ->); [reflexivity| |exact Ex].
  intros k s Hk ->. rewrite (get_ok _ _ (slot_propagator N (g_H0 g) (g_H g) dt u k)) by (rewrite nth_error_map, range_nth by auto; reflexivity).
  eexists. split; [reflexivity|]. reflexivity.
Qed.
Lemma unitary_sized dt u : sized N N (pulse_unitary N (g_H0 g) (g_H g) dt (length (g_times g)) u).
Proof. apply ordered_sized. apply (prop_ok N rt g MA dt u). Qed.
End Mat.

(** There are tables us[r] of three pulses each, such that in every iteration
    r either the best new overlap is below the best so far and the pulses are
    kept, or it is not and one of the new pulses attains it.  The result
    contains the log of these overlaps; the returned unitary has the overlap
    of the last iteration (accepted or not); the returned pulses are those of
    one column of the tables us[0..n-2]; H_t is built from us[n-1]. *)
Theorem C41_kept_partial N rt (g : gargs mat) terminate (res : aresult (A := MatAlg N rt)) :
  (forall x, sized N N x -> r_expm rt x = mexp x) -> matrix_args N g -> 2 <= g_R g ->
  grape_unitary_adaptive (A := MatAlg N rt) (mid N) N terminate g = Ok res ->
  exists dt n us best, dt_is (g_times g) dt /\ 1 <= n <= g_R g - 1 /\
    (forall r, r < n -> exists t t' o, nth_error us r = Some t /\ nth_error us (r + 1) = Some t' /\ length t' = 3 /\
       nth_error (ar_overlap res) r = Some o /\
       ((o < best_so_far (ar_overlap res) r)%R /\ t' = t \/
        (best_so_far (ar_overlap res) r <= o)%R /\ (exists p, In p t' /\ merit N g dt p = o) /\ (forall p, In p t' -> (merit N g dt p <= o)%R))) /\
    (exists w, ar_Uf res = Some w /\ nth_error (ar_overlap res) (n - 1) = Some (figure N (g_ps g) (g_U g) w)) /\
    length (ar_u res) = n - 1 /\
    (forall r p, nth_error (ar_u res) r = Some p -> exists t, nth_error us r = Some t /\ nth_error t best = Some p) /\
    (g_H g <> [] -> exists t, nth_error us (n - 1) = Some t /\ nth_error t best = Some (ar_Ht res)).
Proof.
  intros EX MA HR H.
  assert (HL : exists lm, read_limits (g_limits g) = Ok lm).
  { unfold grape_unitary_adaptive in H. apply bind_inv in H as (e & _ & H). apply bind_inv in H as (lm & El & H). eauto. }
  destruct HL as (lm & El).
  destruct (adaptive_inv (A := MatAlg N rt) (mid N) N g lm terminate res H) as (lm' & s & El' & HI & Hres); [exact (Nat.le_trans _ _ _ (le_S _ _ (le_n 1)) HR)|].
  assert (lm' = lm) by (pose proof (eq_trans (eq_sym El) El') as EE; now injection EE). subst lm'. specialize (HI eq_refl).
  destruct HI as (Lu & Ll & Ft & n & Hn & Hst & H0 & H1 & Hp & HQ).
  unfold adapt_result in Hres. apply bind_inv in Hres as (ht & Eht & Hres). apply bind_inv in Hres as (us & Eus & Hres).
  apply bind_inv in Hres as (uf & Euf & Hres). injection Hres as <-. cbn [ar_u ar_Uf ar_Ht ar_overlap].
  change (g_R (Op := Op (MatAlg N rt)) g) with (g_R (Op := mat) g) in *.
  assert (n <> 0).
  { intros ->. destruct (H0 eq_refl) as [_ Hs]. specialize (Hst Hs). lia. }
  destruct (HQ ltac:(auto)) as (dt & o & w & Edt & HS & Ew & Eo & Esc & (pw & Spw & Epw)). specialize (H1 ltac:(auto)).
  assert (Huf : uf = Some w) by (apply get_inv in Euf; congruence). subst uf.
  assert (Hmerit : forall t Uf, triple (A := MatAlg N rt) g t -> map_res (fun vk => final_unitary (A := MatAlg N rt) (mid N) g (length (g_times g)) dt vk) t = Ok Uf ->
     Uf = map (pulse_unitary N (g_H0 g) (g_H g) dt (length (g_times g))) t).
  { intros t Uf [_ F] E. pose proof (map_res_ok (fun vk => final_unitary (A := MatAlg N rt) (mid N) g (length (g_times g)) dt vk) (pulse_unitary N (g_H0 g) (g_H g) dt (length (g_times g))) t
      (fun x Hx => final_is N rt EX g MA dt x ltac:(eapply Forall_forall in F; [exact F|exact Hx]))) as E'. 
    pose proof (eq_trans (eq_sym E) E') as EE. injection EE as ->. reflexivity. }
  exists dt, n, (a_u s), (a_best s). splits.
  - apply (dt_ok N rt g). auto.
  - lia.
  - lia.
  - intros r Hr. destruct (HS r Hr) as (ur & ur' & o' & E1 & E2 & E3 & T & Hc). exists ur, ur', o'. splits; auto; [apply T|].
    destruct Hc as [Hc|(Hge & Uf & EU & (k & x & Ex & Sx) & Hmax)]; [now left|]. right. split; auto.
    apply Hmerit in EU; auto. subst Uf. split.
    + assert (Hin : In x (map (pulse_unitary N (g_H0 g) (g_H g) dt (length (g_times g))) ur')) by (eapply nth_error_In; exact Ex).
      apply in_map_iff in Hin as (p & <- & Hp'). exists p. split; auto. unfold merit. rewrite <- Sx. symmetry. apply score_figure; auto.
      apply (unitary_sized N rt); auto.
    + intros p Hin. unfold merit. rewrite <- (score_figure N rt) by (auto; apply (unitary_sized N rt); auto).
      apply Hmax. apply in_map. auto.
  - exists w. split; auto. rewrite Eo. f_equal. rewrite <- Esc. 
    assert (Sw : sized N N w).
    { pose proof (eq_trans (eq_sym Epw) (final_is N rt EX g MA dt pw Spw)) as EE. injection EE as ->. apply (unitary_sized N rt); auto. }
    now apply score_figure.
  - apply map_res_length in Eus. rewrite Eus, firstn_length, H1. rewrite Lu. lia.
  - intros r p Hp'. pose proof (nth_lt _ _ _ Hp') as Hlt. pose proof (map_res_length _ _ _ Eus) as Lus. rewrite Lus in Hlt.
    destruct (nth_ex (firstn (a_r s) (a_u s)) r Hlt) as (t & Et).
    destruct (map_res_nth _ _ _ _ _ Eus Et) as (y & Ey & Hy). exists t. split.
    + rewrite firstn_length in Hlt. rewrite <- (firstn_skipn (a_r s) (a_u s)), nth_error_app1; auto. rewrite firstn_length. lia.
    + apply get_inv in Hy || apply get_inv in Ey. congruence.
  - intros Hne. change (length (g_H (Op := Op (MatAlg N rt)) g)) with (length (g_H (Op := mat) g)) in Eht.
    replace (length (g_H g) =? 0) with false in Eht by (symmetry; apply Nat.eqb_neq; intros L0; apply Hne; now apply length_zero_iff_nil).
    pose proof (ma_interp _ _ MA) as EI. change (g_interp (Op := Op (MatAlg N rt)) g = None) in EI. rewrite EI in Eht.
    apply bind_inv in Eht as (t & Et & Eht). apply get_inv in Et, Eht. rewrite H1 in Et. eauto.
Qed.
Example C41_kept_nonvacuous : exists g (res : aresult (A := LAlg)), matrix_args 1 g /\ 2 <= g_R g /\
  grape_unitary_adaptive (A := LAlg) (mid 1) 1 1 g = Ok res.
Proof. destruct adaptive_witness as (res & E & _). exists (adl (PI / 2) 3 (2 * (PI / 3 + 2 * PI))), res. splits; [apply level_args|cbn; lia|exact E]. Qed.

(** A run whose first iteration reaches overlap sqrt(3)/2 and is accepted, and
    whose second iteration is rejected: H_t is built from the accepted pulse,
    but the returned unitary is that of the rejected one, and no returned
    pulse has a positive overlap. *)
Theorem C41_unitary_refuted : exists (g : gargs mat) (res : aresult (A := LAlg)) w dt,
  matrix_args 1 g /\ grape_unitary_adaptive (A := LAlg) (mid 1) 1 1 g = Ok res /\ dt_is (g_times g) dt /\
  nth_error (ar_overlap res) 0 = Some (sqrt 3 / 2)%R /\
  ar_Uf res = Some w /\ (figure 1 (g_ps g) (g_U g) w < sqrt 3 / 2)%R /\
  merit 1 g dt (ar_Ht res) = (sqrt 3 / 2)%R /\
  ar_u res <> [] /\ forall p, In p (ar_u res) -> merit 1 g dt p = 0%R.
Proof.
  destruct adaptive_witness as (res & E & Eo & Eu & Eh & Ew).
  set (e := (2 * (PI / 3 + 2 * PI))%R) in *. set (g := adl (PI / 2) 3 e) in *.
  assert (MA : matrix_args 1 g) by apply level_args.
  assert (Hm : forall x, merit 1 g (1 - 0)%R (flat x) = sin x).
  { intros x. rewrite <- (score_sin x).
    refine (eq_sym (eq_trans _ (score_figure 1 plain_routines g MA _ (unitary_sized 1 plain_routines g MA (1 - 0)%R (flat x))))).
    f_equal. symmetry. refine (eq_trans (level_unitary (1 - 0) x x) _). do 3 f_equal. ring. }
  exists g, res. eexists _, (1 - 0)%R. rewrite Eo, Eu, Eh. splits; auto.
  - eexists 0%R, 1%R, []. cbn. auto.
  - exact Ew.
  - rewrite <- (score_figure 1 plain_routines g MA) by apply num_sized.
    refine (eq_ind_r (fun x => (x < sqrt 3 / 2)%R) _ (score_sin (0 + e / 2 * 1 + e / 2 / 2 * (1 / 2)))). unfold e. rewrite sm0. apply order.
  - rewrite Hm. apply sn0.
  - discriminate.
  - intros p [<-|[]]. rewrite Hm. apply sin_0.
Qed.

(** Whatever the problem, a non-zero beta makes the function raise (the penalty
    uses a stale loop variable), and so does interpolation. *)
Theorem C41_beta_refuted {A : Alg} (one : Op A) (dim : nat) (g : gargs (Op A)) terminate res :
  truthy (g_beta g) = true -> g_H g <> [] -> 2 <= g_R g -> grape_unitary_adaptive one dim terminate g <> Ok res.
Proof.
  intros Hb HJ HR H. unfold grape_unitary_adaptive in H.
  apply bind_inv in H as (e & _ & H). apply bind_inv in H as (lm & El & H). apply bind_inv in H as (u0 & E0 & H).
  apply bind_inv in H as (s0 & Es & H). apply bind_inv in H as (s & Eloop & _).
  assert (S0 : a_stop s0 = false).
  { unfold adapt_start in Es. apply bind_inv in Es as (u & _ & Es). now injection Es as <-. }
  destruct (g_R g - 1) as [|k] eqn:EK; [lia|]. cbn [range seq for_each] in Eloop. unfold range in Eloop. cbn [seq for_each] in Eloop.
  apply bind_inv in Eloop as (s1 & E1 & _). unfold adapt_step in E1. rewrite S0 in E1.
  apply bind_inv in E1 as (x & _ & E1). apply bind_inv in E1 as (elog & _ & E1). apply bind_inv in E1 as (dt & Edt & E1).
  apply bind_inv in E1 as (ur & Eur & E1). apply bind_inv in E1 as (ub & _ & E1). apply bind_inv in E1 as (Us & _ & E1).
  apply bind_inv in E1 as ([fl bl] & _ & E1). apply bind_inv in E1 as (v & Ev & _).
  pose proof (step_M g _ Edt) as HM. unfold update_ad in Ev.
  destruct (g_H g) as [|h hs] eqn:EH; [congruence|]. cbn [length] in Ev. unfold range at 1 in Ev. cbn [seq for_each] in Ev.
  apply bind_inv in Ev as (v1 & Ev & _). apply bind_inv in Ev as (v2 & Ev & _).
  destruct (length (g_times g) - 1) as [|m] eqn:Em; [lia|]. unfold range at 1 in Ev. cbn [seq for_each] in Ev.
  apply bind_inv in Ev as (v3 & Ev & _). do 5 (apply bind_inv in Ev as (? & _ & Ev)). rewrite Hb in Ev.
  apply bind_inv in Ev as (t & Et & _). destruct (g_start g) as [st|]; [|discriminate].
  destruct (_ =? 0); [discriminate|]. destruct (_ <? 3); discriminate.
Qed.
Example C41_beta_nonvacuous : truthy (g_beta (level (PI / 2) 3 1 None None None (Some 1%R) true)) = true.
Proof. cbn. unfold neqR. destruct Req_EM_T; auto; lra. Qed.
Theorem C41_interp_refuted {A : Alg} (one : Op A) (dim : nat) (g : gargs (Op A)) terminate res :
  g_interp g <> None -> g_H g <> [] -> grape_unitary_adaptive one dim terminate g <> Ok res.
Proof.
  intros Hi HJ H. unfold grape_unitary_adaptive in H.
  apply bind_inv in H as (e & _ & H). apply bind_inv in H as (lm & El & H). apply bind_inv in H as (u0 & E0 & H).
  apply bind_inv in H as (s0 & Es & H). apply bind_inv in H as (s & _ & H). unfold adapt_result in H.
  apply bind_inv in H as (ht & H & _). destruct (g_H g); [congruence|]. cbn [length Nat.eqb] in H. now destruct (g_interp g).
Qed.

(** ** C67: with overlap_terminate < 1 the iterations end at the first one whose
    overlap is above it, and only there.  The number of iterations is one more
    than the number of pulses returned; the log is zero after the last. *)
Theorem C67_stop {A : Alg} (one : Op A) (dim : nat) (g : gargs (Op A)) terminate res :
  2 <= g_R g -> grape_unitary_adaptive one dim terminate g = Ok res ->
  exists n, 1 <= n <= g_R g - 1 /\ length (ar_u res) = n - 1 /\ length (ar_overlap res) = g_R g /\
    (forall r o, r < n - 1 -> nth_error (ar_overlap res) r = Some o -> (terminate < 1)%R -> (o <= terminate)%R) /\
    (n < g_R g - 1 -> (terminate < 1)%R /\ exists o, nth_error (ar_overlap res) (n - 1) = Some o /\ (terminate < o)%R) /\
    (forall r, n <= r < g_R g -> nth_error (ar_overlap res) r = Some 0%R).
Proof.
  intros HR H. destruct (adaptive_stop one dim g terminate res H ltac:(lia)) as (s & (Lu & Ll & n & Hn & Hf & Ht & Hr & Hb & Hb' & Hz) & Hres).
  unfold adapt_result in Hres. apply bind_inv in Hres as (ht & Eht & Hres). apply bind_inv in Hres as (us & Eus & Hres).
  apply bind_inv in Hres as (uf & Euf & Hres). injection Hres as <-. cbn [ar_u ar_overlap].
  assert (N0 : n <> 0).
  { destruct (a_stop s) eqn:E; [now apply Ht|]. specialize (Hf eq_refl). lia. }
  exists n. splits; auto; try lia.
  - apply map_res_length in Eus. rewrite Eus, firstn_length, Lu, (Hr N0). lia.
  - intros r o Hro Eo T. destruct (Rle_lt_dec o terminate); auto. exfalso. apply (Hb r o); auto; [lia|]. split; auto.
  - intros Hlt. destruct (a_stop s) eqn:E; [|specialize (Hf eq_refl); lia]. destruct (Ht eq_refl) as (_ & o & Eo & T1 & T2). eauto.
Qed.
(** A run that ends early returns a unitary that is above the target. *)
Theorem C67_target N rt (g : gargs mat) terminate (res : aresult (A := MatAlg N rt)) :
  (forall x, sized N N x -> r_expm rt x = mexp x) -> matrix_args N g -> 2 <= g_R g ->
  grape_unitary_adaptive (A := MatAlg N rt) (mid N) N terminate g = Ok res ->
  length (ar_u res) + 2 < g_R g ->
  exists w, ar_Uf res = Some w /\ (terminate < figure N (g_ps g) (g_U g) w)%R.
Proof.
  intros EX MA HR H L. destruct (C67_stop (A := MatAlg N rt) (mid N) N g terminate res HR H) as (n & Hn & Ln & _ & _ & Hs & _).
  destruct (C41_kept_partial N rt g terminate res EX MA HR H) as (dt & n' & us & best & _ & Hn' & _ & (w & Ew & Eo) & Ln' & _).
  assert (n' = n) by lia. subst n'. change (g_R (Op := Op (MatAlg N rt)) g) with (g_R (Op := mat) g) in *.
  destruct (Hs ltac:(lia)) as (_ & o & Eo' & T). exists w. split; auto.
  rewrite Eo in Eo'. injection Eo' as ->. exact T.
Qed.
(** But not the pulse: a run that stops in its first iteration with the target
    1/2 reached returns no pulse at all, and an H_t with the starting pulse,
    whose overlap is 0. *)
Theorem C67_pulse_refuted : exists (g : gargs mat) (res : aresult (A := LAlg)) dt,
  matrix_args 1 g /\ 2 <= g_R g /\ grape_unitary_adaptive (A := LAlg) (mid 1) 1 (1 / 2) g = Ok res /\ dt_is (g_times g) dt /\
  length (ar_u res) + 2 < g_R g /\
  nth_error (ar_overlap res) 0 = Some (sqrt 3 / 2)%R /\ (1 / 2 < sqrt 3 / 2)%R /\
  ar_u res = [] /\ merit 1 g dt (ar_Ht res) = 0%R.
Proof.
  destruct stop_witness as (res & E & Eo & Eu & Eh & Ew).
  set (e := (2 * (PI / 3 + 2 * PI))%R) in *. set (g := adl (PI / 2) 3 e) in *.
  assert (MA : matrix_args 1 g) by apply level_args.
  assert (Hm : forall x, merit 1 g (1 - 0)%R (flat x) = sin x).
  { intros x. rewrite <- (score_sin x).
    refine (eq_sym (eq_trans _ (score_figure 1 plain_routines g MA _ (unitary_sized 1 plain_routines g MA (1 - 0)%R (flat x))))).
    f_equal. symmetry. refine (eq_trans (level_unitary (1 - 0) x x) _). do 3 f_equal. ring. }
  exists g, res, (1 - 0)%R. rewrite Eo, Eu, Eh. splits; auto; try (cbn; lia).
  - eexists 0%R, 1%R, []. cbn. auto.
  - apply half_lt.
  - rewrite Hm. apply sin_0.
Qed.

(** Assumptions of all theorems of this file together (listed one by one in
    ASSUMPTIONS.txt). *)
Definition propsAdaptive :=
  (@C41_kept_partial,
   @C41_unitary_refuted,
   @C41_beta_refuted,
   @C41_interp_refuted,
   @C67_stop,
   @C67_target,
   @C67_pulse_refuted).
Print Assumptions propsAdaptive.
