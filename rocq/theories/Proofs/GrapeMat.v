(** Simple GRAPE on matrix systems: products and derivatives. *)
From Coq Require Import Reals Lra.
From Coquelicot Require Import Coquelicot.
From Verif.Model Require Import Base Dyn Grape.
From Verif.Lib Require Import Lists Csum Mat MExp MCalc MDiag.
From Verif.Spec Require Import Evolution MatAlg Grapes.
From Verif.Proofs Require Import MatProps GrapeFacts.
Local Open Scope nat_scope.
Set Bullet Behavior "Strict Subproofs".

Section Products.
Context (N : nat) (f : nat -> mat).
Hypothesis Hf : forall k, sized N N (f k) /\ proper (f k).

Lemma ordered_sized a n : sized N N (ordered N f a n).
Proof. induction n; cbn; auto with mat. apply (mmul_sized N N N); auto. apply Hf. Qed.
Lemma ordered_proper a n : proper (ordered N f a n).
Proof. destruct n; cbn; [apply proper_id|apply proper_mul]. Qed.
Lemma ordered_r a n : ordered N f a (S n) = mmul (ordered N f (S a) n) (f a).
Proof.
  induction n.
  - cbn. rewrite Nat.add_0_r. destruct (Hf a). rewrite (mmul_1_r N N), (mmul_1_l N N); auto.
  - cbn [ordered] in *. rewrite IHn. rewrite mmul_assoc. now replace (S a + n) with (a + S n) by lia.
Qed.
Lemma ordered_app a n k : ordered N f a (n + k) = mmul (ordered N f (a + n) k) (ordered N f a n).
Proof.
  induction k.
  - rewrite Nat.add_0_r. cbn [ordered]. rewrite (mmul_1_l N N); auto using ordered_sized, ordered_proper.
  - rewrite Nat.add_succ_r. cbn [ordered]. rewrite IHk, mmul_assoc. now rewrite Nat.add_assoc.
Qed.
End Products.

Lemma conj_tr N x : sized N N x -> mtr (mdag x) = Cconj (mtr x).
Proof.
  intros S. unfold mtr. rewrite csum_conj. destruct (mdag_sized N N x S) as [-> _]. destruct S as [E E'].
  rewrite E. apply csum_ext. intros i Hi. now rewrite (mdag_ent N N).
Qed.

Section Mat.
Context (N : nat) (rt : routines).
Hypothesis EX : forall x, sized N N x -> r_expm rt x = mexp x.
Notation A := (MatAlg N rt).
Context (g : gargs (Op A)).
Hypothesis MA : matrix_args N g.
Notation M := (length (g_times g)).
Notation J := (length (g_H g)).
Notation one := (mid N : Op A).

Lemma fold_add (l : list mat) : forall x, Forall (sized N N) l -> sized N N x -> proper x ->
  fold_left madd l x = madd x (fold_right madd (mzero N N) l).
Proof.
  induction l; intros x F Sx Px; cbn; [rewrite (madd_0_r N N); auto|].
  inversion F; subst. rewrite IHl; auto using proper_add with mat.
  symmetry. apply (madd_assoc N N); auto.
  clear -H2 F. induction l; cbn; auto with mat. inversion H2; subst. apply madd_sized; auto.
Qed.
Lemma control_sized u Hs m : Forall (matrix N N) Hs -> sized N N (control_part N u Hs m).
Proof.
  unfold control_part. revert Hs. induction u as [|r u IH]; intros [|h Hs] F; cbn; auto with mat.
  inversion F; subst. apply madd_sized, mscal_sized. apply H1.
Qed.
Lemma hamiltonian_sum (H0 : mat) (Hs : list mat) (u : pulse) m : matrix N N H0 -> Forall (matrix N N) Hs ->
  hamiltonian (A := A) H0 (map (fun row => nth m row 0%R) u) Hs = madd H0 (control_part N u Hs m).
Proof.
  intros [HS HP] HF. unfold hamiltonian, hsum. change (oscale A) with mscal. change (oadd A) with madd. unfold control_part.
  assert (E : forall (us : pulse) (Hs : list mat), map (fun '(c, h) => mscal (RtoC c) h) (combine (map (fun row => nth m row 0%R) us) Hs)
            = map (fun '(row, h) => mscal (RtoC (nth m row 0%R)) h) (combine us Hs)).
  { induction us as [|r us IH]; intros [|h Hs']; cbn; auto. now rewrite IH. }
  destruct u as [|r u]; cbn [combine map fold_right]; [rewrite (madd_0_r N N); auto|].
  destruct Hs as [|h Hs]; cbn [combine map fold_right]; [rewrite (madd_0_r N N); auto|].
  assert (Hh : matrix N N h) by now inversion HF.
  assert (HT : Forall (matrix N N) Hs) by now inversion HF.
  f_equal. change (Op A) with mat. rewrite E. rewrite fold_add.
  - f_equal. clear. revert Hs. induction u as [|r' u IH]; intros [|h' Hs]; cbn; auto. now rewrite IH.
  - clear - HT. revert Hs HT. induction u as [|r' u IH]; intros [|h' Hs] F; cbn; constructor.
    + inversion F; subst. apply mscal_sized. now destruct H1.
    + inversion F; subst. now apply IH.
  - apply mscal_sized, Hh.
  - apply proper_scal.
Qed.
Lemma hamiltonian_is u m :
  hamiltonian (A := A) (g_H0 g) (map (fun row => nth m row 0%R) u) (g_H g) = madd (g_H0 g) (control_part N u (g_H g) m).
Proof. destruct MA as [_ H0 HF _]. exact (hamiltonian_sum _ _ u m H0 HF). Qed.

Lemma amps_ok u m : shape J M u -> m < M ->
  map_res (fun row => amp_at g row m) u = Ok (map (fun row => nth m row 0%R) u).
Proof.
  intros [L F] Hm. clear L. unfold amp_at. pose proof (ma_interp _ _ MA) as EI. change (@g_interp (Op A) g = None) in EI. rewrite EI. induction u as [|r u IH]; cbn [map_res map]; auto.
  inversion F; subst. rewrite (get_ok r m (nth m r 0%R)) by (apply nth_of; lia). cbn [bind]. rewrite IH; auto.
Qed.
Lemma map_res_ok {X Y} (h : X -> Res Y) (k : X -> Y) l : (forall x, In x l -> h x = Ok (k x)) -> map_res h l = Ok (map k l).
Proof.
  induction l as [|x l IH]; intros H; cbn; auto. rewrite H by now left. cbn. rewrite IH; auto. intros; apply H; now right.
Qed.
Lemma slots_ok dt u : shape J M u ->
  slot_unitaries (A := A) g M dt u = Ok (map (slot_propagator N (g_H0 g) (g_H g) dt u) (range (M - 1))).
Proof.
  intros Su. unfold slot_unitaries. apply map_res_ok. intros m Hm.
  assert (m < M - 1) by (apply in_seq in Hm; lia).
  rewrite amps_ok by (auto; lia). cbn [bind]. f_equal.
  unfold slot_propagator. rewrite (hamiltonian_is u m).
  change (oexpm A) with (r_expm rt). change (oscale A) with mscal.
  destruct MA as [_ [HS HP] HF _].
  rewrite (mscal_scal N N) by auto with mat. apply EX. auto with mat.
Qed.
Lemma prop_ok dt u k : sized N N (slot_propagator N (g_H0 g) (g_H g) dt u k) /\ proper (slot_propagator N (g_H0 g) (g_H g) dt u k).
Proof.
  destruct MA as [_ [HS HP] HF _]. split; [apply mexp_sized; auto with mat|apply mexp_proper].
Qed.
Lemma slots_nth dt u m d : m < M - 1 -> nth m (map (slot_propagator N (g_H0 g) (g_H g) dt u) (range (M - 1))) d = slot_propagator N (g_H0 g) (g_H g) dt u m.
Proof.
  intros Hm. apply nth_error_nth. rewrite nth_error_map, range_nth; auto.
Qed.

Lemma fprod_is dt u n : n <= M - 1 ->
  fprod (A := A) one (map (slot_propagator N (g_H0 g) (g_H g) dt u) (range (M - 1))) n
  = ordered N (slot_propagator N (g_H0 g) (g_H g) dt u) 0 n.
Proof.
  induction n; intros Hn; cbn [fprod ordered]; auto. rewrite IHn by lia. change (omul A) with mmul. f_equal. refine (slots_nth dt u n _ _). lia.
Qed.
Lemma bprod_is dt u n : n <= M - 1 -> 2 <= M ->
  bprod (A := A) one M (map (slot_propagator N (g_H0 g) (g_H g) dt u) (range (M - 1))) n
  = mdag (ordered N (slot_propagator N (g_H0 g) (g_H g) dt u) (M - 1 - n) n).
Proof.
  induction n; intros Hn HM.
  - cbn. symmetry. apply mdag_id.
  - pose proof (prop_ok dt u) as Hp.
    rewrite (ordered_r N _ Hp), (mdag_mul N N N); [|apply ordered_sized; auto|apply Hp].
    cbn [bprod]. rewrite IHn by lia. refine (eq_trans (f_equal (fun x => mmul (mdag x) _) (slots_nth dt u (M - 2 - n) (mid N) _)) _); [lia|].
    replace (M - 2 - n) with (M - 1 - S n) by lia. now replace (S (M - 1 - S n)) with (M - 1 - n) by lia.
Qed.

(** The update direction is the derivative of the figure. *)
Lemma direction_derives dt u m h : 2 <= M -> m < M - 1 -> matrix N N h -> N <> 0 ->
  is_derive (fun s => figure N (g_ps g) (g_U g) (nudged N (g_H0 g) (g_H g) dt M u m h s)) 0%R
    (Re (direction (A := A) N (g_ps g) (g_U g) h dt
       (ordered N (slot_propagator N (g_H0 g) (g_H g) dt u) 0 (S m))
       (mdag (ordered N (slot_propagator N (g_H0 g) (g_H g) dt u) (S m) (M - 2 - m))))).
Proof.
  intros HM Hm [Sh Ph] HN. pose proof (prop_ok dt u) as Hp. destruct MA as [[SU PU] _ _ _].
  set (f := slot_propagator N (g_H0 g) (g_H g) dt u) in *.
  set (E := ordered N f 0 (S m)). set (L := ordered N f (S m) (M - 2 - m)).
  assert (SE : sized N N E) by (apply ordered_sized; auto).
  assert (PE : proper E) by (apply ordered_proper; auto).
  assert (SL : sized N N L) by (apply ordered_sized; auto).
  assert (PL : proper L) by (apply ordered_proper; auto).
  set (X := mscal (RtoC dt * - Ci)%C h). assert (SX : sized N N X) by (unfold X; auto with mat).
  assert (D : der N N (fun s => nudged N (g_H0 g) (g_H g) dt M u m h s) 0%R (mmul L (mmul X E))).
  { unfold nudged. cbv zeta. fold f E L X. apply (der_mul_l N N N); auto. apply (der_mul_r N N N); auto.
    pose proof (der_flow N X 0%R SX) as Q. rewrite (mexp_mscal0 N) in Q by auto.
    rewrite (mmul_1_r N N) in Q; auto. unfold X. apply proper_scal. }
  assert (F0 : nudged N (g_H0 g) (g_H g) dt M u m h 0 = mmul L E).
  { unfold nudged. cbv zeta. fold f E L X. rewrite (mexp_mscal0 N) by auto. rewrite (mmul_1_l N N); auto. }
  set (U := g_U g : mat) in *.
  assert (SD : sized N N (mdag U)) by (apply mdag_sized; auto).
  assert (T : derC (fun s => trace_overlap N U (nudged N (g_H0 g) (g_H g) dt M u m h s)) 0%R (trace_overlap N U (mmul L (mmul X E)))).
  { unfold trace_overlap. pose proof (derM_tr N _ _ _ (der_mul_l N N N (mdag U) _ _ _ SD D)) as Q.
    unfold Cdiv. eapply derC_eq; [apply derC_mult; [exact Q|apply derC_const]|]. cbv beta. ring. }
  (* the two overlaps of the code *)
  assert (SXE : sized N N (mmul X E)) by (apply (mmul_sized N N N); assumption).
  assert (SLXE : sized N N (mmul L (mmul X E))) by (apply (mmul_sized N N N); assumption).
  assert (SLE : sized N N (mmul L E)) by (apply (mmul_sized N N N); assumption).
  assert (SDL : sized N N (mdag L)) by (apply mdag_sized; assumption).
  assert (SDLU : sized N N (mmul (mdag L) U)) by (apply (mmul_sized N N N); assumption).
  assert (SUL : sized N N (mmul (mdag U) L)) by (apply (mmul_sized N N N); assumption).
  assert (S3 : sized N N (mmul (mdag U) (mmul L (mmul X E)))) by (apply (mmul_sized N N N); assumption).
  assert (S4 : sized N N (mmul (mdag U) (mmul L E))) by (apply (mmul_sized N N N); assumption).
  assert (S1 : mscal (RtoC dt * Ci)%C h = mscal (- RtoC 1)%C X).
  { unfold X. rewrite (mscal_scal N N) by auto. f_equal. ring. }
  clearbody E L X f.
  assert (O1 : Copp (goverlap (A := A) N (mmul (mdag L) U) (mmul (mscal (RtoC dt * Ci)%C h) E)) = trace_overlap N U (mmul L (mmul X E))).
  { unfold goverlap, trace_overlap. cbn [omul odag otr MatAlg].
    rewrite (mdag_mul N N N) by auto with mat. rewrite (mdag_dag N N) by auto.
    rewrite S1. rewrite (mmul_scal_l N N N) by auto.
    rewrite (mmul_scal_r N N N) by assumption.
    rewrite <- mmul_assoc.
    rewrite (mtr_scal N) by assumption. unfold Cdiv. ring. }
  assert (O2 : goverlap (A := A) N E (mmul (mdag L) U) = Cconj (trace_overlap N U (mmul L E))).
  { unfold goverlap, trace_overlap. cbn [omul odag otr MatAlg]. unfold Cdiv. rewrite Cconj_mult.
    rewrite <- (conj_tr N) by assumption.
    rewrite (mdag_mul N N N) by assumption.
    rewrite (mdag_mul N N N) by auto. rewrite (mdag_dag N N) by auto. rewrite mmul_assoc.
    f_equal. now rewrite <- RtoC_inv, Cconj_R by (apply not_0_INR; auto). }
  unfold direction. cbn [omul oscale MatAlg]. fold U. destruct T as [TR TI].
  unfold figure. destruct (g_ps g).
  - rewrite O1. exact TR.
  - set (z := fun s => trace_overlap N U (nudged N (g_H0 g) (g_H g) dt M u m h s)) in *.
    apply (is_derive_ext (fun s => Re (z s) * Re (z s) + Im (z s) * Im (z s))%R).
    { intros s. unfold Cmod. fold (z s). rewrite <- Rsqr_pow2, Rsqr_sqrt; [cbn; unfold Re, Im; ring|]. nra. }
    pose proof (is_derive_plus (K := R_AbsRing) (V := R_NormedModule) _ _ _ _ _ (rd_mult _ _ _ _ _ TR TR) (rd_mult _ _ _ _ _ TI TI)) as Q.
    match type of Q with is_derive _ _ ?d => match goal with |- is_derive _ _ ?e => replace e with d; [exact Q|] end end.
    rewrite O2, <- F0. change (trace_overlap N U (nudged N (g_H0 g) (g_H g) dt M u m h 0)) with (z 0%R).
    replace (goverlap (A := A) N (mmul (mdag L) U) (mmul (mscal (RtoC dt * Ci)%C h) E)) with (- trace_overlap N U (mmul L (mmul X E)))%C by (rewrite <- O1; ring).
    set (w := trace_overlap N U (mmul L (mmul X E))). destruct (z 0%R) as [a b], w as [c d].
    cbn. unfold plus; cbn. ring.
Qed.
End Mat.

(** ** What a run computes *)
Lemma penal_py_Re al be m x dt z :
  Re (penal_py al be m x dt z) = (Re z - 2 * penalty al * x * dt - 2 * penalty be * INR m * x * dt)%R.
Proof.
  unfold penal_py, truthy, value, penalty, neqR. destruct al as [al|], be as [be|]; cbv zeta.
  all: repeat destruct Req_EM_T; subst; rewrite ?Re_plus; unfold Re, RtoC; cbn [fst]; ring.
Qed.
Lemma penal_cy_Re al be m x dt z :
  Re (penal_cy (if truthy al then value al else 0%R) (if truthy be then value be else 0%R) m x dt z)
  = (Re z - 2 * Rmax 0 (penalty al) * x * dt - 2 * penalty be * INR m ^ 2 * x * dt)%R.
Proof.
  assert (T : forall w, (if truthy w then value w else 0%R) = penalty w).
  { intros [w|]; cbn; auto. unfold neqR. destruct Req_EM_T; auto. }
  rewrite !T. unfold penal_cy, neqR, ltR. generalize (penalty al) as a, (penalty be) as b. intros a b. cbv zeta.
  destruct Rlt_dec as [H|H]; [rewrite Rmax_right by lra|rewrite Rmax_left by lra]; destruct Req_EM_T; subst; rewrite ?Re_plus; unfold Re, RtoC; cbn [fst]; ring.
Qed.
Lemma clip_is l lim x : read_limits l = Ok lim -> (forall lo hi, l = Some [lo; hi] -> (lo <= hi)%R) -> clip lim x = limited l x.
Proof.
  unfold read_limits. destruct l as [[|lo [|hi [|]]]|]; intros [= <-] H; cbn; auto.
  specialize (H _ _ eq_refl). unfold ltR. destruct Rlt_dec.
  - rewrite Rmax_left, Rmin_right by lra. auto.
  - rewrite Rmax_right by lra. destruct Rlt_dec; [rewrite Rmin_left by lra|rewrite Rmin_right by lra]; auto.
Qed.

Lemma entry_at J M u j m : shape J M u -> j < J -> m < M -> entry u j m = Some (at2 u j m).
Proof.
  intros Su Hj Hm. unfold entry, at2. pose proof (shape_row J M u j Su Hj) as L. destruct Su as [L1 _].
  rewrite (nth_of u j []) by lia. apply nth_of. lia.
Qed.

Section Run.
Context (N : nat) (rt : routines).
Hypothesis EX : forall x, sized N N x -> r_expm rt x = mexp x.
Notation A := (MatAlg N rt).
Context (g : gargs (Op A)).
Hypothesis MA : matrix_args N g.
Notation M := (length (g_times g)).
Notation J := (length (g_H g)).

Lemma step_ok eps : step_size (A := A) g = Ok eps -> step_is (g_eps g) (g_times g) eps.
Proof.
  unfold step_size, step_is. destruct (g_eps g); [now intros [= <-]|].
  intros H. apply bind_inv in H as (t & Ht & H). injection H as <-. f_equal. apply get_inv in Ht.
  assert (L : forall l (x : R) d, nth_error l (length l - 1) = Some x -> last l d = x).
  { induction l as [|y l IH]; intros x d E; [discriminate|]. destruct l as [|z l]; [cbn in *; congruence|].
    change (last (z :: l) d = x). apply IH. cbn in *. now rewrite Nat.sub_0_r in *. }
  rewrite (L _ _ 0%R Ht). auto.
Qed.
Lemma dt_ok dt : time_step (A := A) g = Ok dt -> dt_is (g_times g) dt.
Proof.
  unfold time_step, dt_is. intros H. apply bind_inv in H as (t1 & E1 & H). apply bind_inv in H as (t0 & E0 & H). injection H as <-.
  apply get_inv in E1, E0. destruct (g_times g) as [|a [|b l]]; try discriminate. cbn in *. injection E1 as <-. injection E0 as <-. eauto 6.
Qed.

Lemma grape_spec pen update res : updates (A := A) (mid N) N g pen update -> N <> 0 ->
  grape_run (A := A) (mid N) update g = Ok res ->
  exists eps lim dt, step_is (g_eps g) (g_times g) eps /\ dt_is (g_times g) dt /\ read_limits (g_limits g) = Ok lim /\
    2 <= g_R g /\ 2 <= M /\ length (o_u res) = g_R g /\ Forall (shape J M) (o_u res) /\
    (exists u0, nth_error (o_u res) 0 = Some u0 /\ first_pulse J M lim (g_start g) = Ok u0) /\
    (J <> 0 -> nth_error (o_u res) (g_R g - 1) = Some (o_Ht res)) /\
    forall r, r < g_R g - 1 -> exists u v, nth_error (o_u res) r = Some u /\ nth_error (o_u res) (r + 1) = Some v /\
      (r = g_R g - 2 -> o_Uf res = Some (pulse_unitary N (g_H0 g) (g_H g) dt M u)) /\
      forall j, j < J -> at2 v j (M - 1) = at2 v j (M - 2) /\
      forall m h, nth_error (g_H g) j = Some h -> m < M - 1 ->
        exists z, is_derive (fun s => figure N (g_ps g) (g_U g) (nudged N (g_H0 g) (g_H g) dt M u m h s)) 0%R (Re z) /\
          at2 v j m = clip lim (at2 u j m + eps * Re (pen dt m (at2 u j m) z))%R.
Proof.
  intros HU HN H.
  destruct (run_spec (A := A) (mid N) N g pen update res HU H) as (eps & lim & u0 & Ee & El & E0 & HR & L & N0 & F & HJ & dt & Edt & Q).
  exists eps, lim, dt. pose proof (step_M (A := A) g dt Edt) as HM.
  splits; auto using step_ok, dt_ok; eauto.
  intros r Hr. destruct (Q r Hr) as (u & v & fl & Eu & Ev & (Su & Us & bl & Es & Ef & Lf & Lb & Hfb & Sv & Hv) & Hl).
  exists u, v. splits; auto.
  - intros Er. rewrite (Hl Er).
    rewrite (slots_ok N rt EX g MA dt u Su) in Es. injection Es as <-.
    f_equal. refine (eq_trans (proj1 (Hfb (M - 2) _)) _); [lia|].
    refine (eq_trans (fprod_is N rt g dt u (S (M - 2)) _) _); [lia|].
    unfold pulse_unitary. f_equal. lia.
  - intros j Hj. split.
    + rewrite !Hv by lia. rewrite Nat.eqb_refl. replace (M - 2 =? M - 1) with false by (symmetry; apply Nat.eqb_neq; lia). auto.
    + intros m h Eh Hm.
      rewrite (slots_ok N rt EX g MA dt u Su) in Es. injection Es as <-.
      destruct (Hfb m Hm) as (F1 & F2).
      assert (Mh : matrix N N h).
      { destruct MA as [_ _ HF _]. eapply Forall_forall in HF; [exact HF|]. eapply nth_error_In; eauto. }
      exists (direction (A := A) N (g_ps g) (g_U g) h dt (ordered N (slot_propagator N (g_H0 g) (g_H g) dt u) 0 (S m))
       (mdag (ordered N (slot_propagator N (g_H0 g) (g_H g) dt u) (S m) (M - 2 - m)))). split.
      * apply direction_derives; auto.
      * rewrite Hv by lia. replace (m =? M - 1) with false by (symmetry; apply Nat.eqb_neq; lia).
        unfold val. do 6 f_equal.
        -- apply nth_error_nth. auto.
        -- refine (eq_trans F1 _). apply fprod_is. lia.
        -- refine (eq_trans F2 _). refine (eq_trans (bprod_is N rt g MA dt u (M - 2 - m) _ HM) _); [lia|].
           do 2 f_equal. lia.
Qed.
End Run.
