(** Facts about the finite-difference gradient. *)
From Coq Require Import Reals Lra.
From Coquelicot Require Import Coquelicot.
From RecordUpdate Require Import RecordUpdate.
From Verif.Model Require Import Base Dyn Approx.
From Verif.Lib Require Import Lists Csum Mat MExp MCalc MDiag.
From Verif.Spec Require Import Evolution History MatAlg FinDiff.
From Verif.Proofs Require Import DynInv DynRun DynHist DynHistory DynProps DynMore DynFrame MatFacts MatGrad MatProps.
Local Open Scope nat_scope.
Set Bullet Behavior "Strict Subproofs".

Section Any.
Context {A : Alg} (s : settings A) (n m : nat).
Hypothesis W : well_posed s n m.
Hypothesis RO : routines_ok s n m.
Hypothesis HF : s_fid s = FTrace.

Definition trial_prop (eps t : R) (g c : Op A) : Op A :=
  oexpm A (oscale A (RtoC t) (oadd A (with_phase s g) (oscale A (RtoC eps) (with_phase s c)))).
(** The product formed by the code. *)
Definition code_final (a : amps) (k : nat) (p : Op A) : Op A :=
  let x := omul A (evolve (firstn k (props_of s a)) (s_initial s)) p in
  match product (skipn (S k) (props_of s a)) with None => x | Some y => omul A x y end.

Lemma approx_gradient a d eps : s_prop s = Approx -> shape n m a -> Good s n m a d ->
  exists d' g, get_fid_err_gradient_approx eps d = Ok (d', g) /\ shape n m g /\
    forall k j, k < n -> j < m -> exists y t gk c cs cj, entry g k j = Some y /\
      nth_error (s_tau s) k = Some t /\ nth_error (gens_of s a) k = Some gk /\
      eff_ctrls s = Some c /\ nth_error (ctrl_ops n c) k = Some cs /\ nth_error cs j = Some cj /\
      y = ((trace_scale s * Re (otr A (omul A (odag A (osub A (s_target s) (code_final a k (trial_prop eps t gk cj))))
                                       (osub A (s_target s) (code_final a k (trial_prop eps t gk cj)))))
            - fid_err_of s a) / eps)%R.
Proof.
  intros HA Ha G. pose proof G as (dr & c & Hdr & Hdrf & Hc & Hcf & I).
  destruct W as [Htau Hpos _ _ Hm Hdiagc]. destruct RO as (Hfr & Haug & Hdiag).
  unfold get_fid_err_gradient_approx.
  destruct (f_grad_cur (d_fidst d)) eqn:Eg.
  { destruct (inv_grad _ _ _ _ _ _ _ I Eg) as (Q & _). contradiction. }
  unfold compute_fid_err_grad_approx.
  rewrite (num_ctrls_ok s n m dr c Htau Hpos Hdr Hdrf Hc Hcf Hm Hdiagc Hfr Haug Hdiag a Ha d (inv_st _ _ _ _ _ _ _ I)). cbn [bind].
  rewrite (n_ts_eq s n m dr c Htau d) by apply I.
  destruct (evo_ok s n m dr c Htau Hpos Hdr Hdrf Hc Hcf Hm Hdiagc Hfr Haug Hdiag a d I) as (d1 & b & -> & I1 & C1 & _). cbn [bind].
  destruct (fid_err_ok s n m dr c Htau Hpos Hdr Hdrf Hc Hcf Hm Hdiagc Hfr Haug Hdiag a d1 I1) as (d2 & E2 & I2). rewrite E2. cbn [bind].
  assert (C2 : d_evo_cur d2 = true).
  { revert E2. unfold get_fid_err. rewrite (st_set _ _ _ _ _ _ (inv_st _ _ _ _ _ _ _ I1)), settled_fid, HF.
    destruct (f_fid_cur (d_fidst d1)).
    - destruct (f_fid_err (d_fidst d1)); cbn; [intros [= <- _]; auto|discriminate].
    - unfold compute_evolution. rewrite C1. cbn [bind]. intros E.
      repeat (apply bind_inv in E; destruct E as (? & _ & E)). injection E as <- _. unfold bump_fid.
      destruct (d_stats _); exact C1. }
  pose proof (inv_cur _ _ _ _ _ _ _ I2 C2) as Cu.
  destruct (fill_grad_const n m (approx_grad_entry eps n (fid_err_of s a)) 0%R d2
     (fun k j y => exists t gk c cs cj,
      nth_error (s_tau s) k = Some t /\ nth_error (gens_of s a) k = Some gk /\
      eff_ctrls s = Some c /\ nth_error (ctrl_ops n c) k = Some cs /\ nth_error cs j = Some cj /\
      y = ((trace_scale s * Re (otr A (omul A (odag A (osub A (s_target s) (code_final a k (trial_prop eps t gk cj))))
                                       (osub A (s_target s) (code_final a k (trial_prop eps t gk cj)))))
            - fid_err_of s a) / eps)%R)) as (g & Eq & L & F & H).
  { intros k j Hk Hj. unfold approx_grad_entry.
    destruct (slot s n m dr c Htau Hpos Hdr Hdrf Hc Hcf Hm Hdiagc Hfr Haug Hdiag a Ha k Hk)
      as (d0 & row & cs & t & gk & E0 & E1 & Ecs & Et & L1 & L2 & Egk & Eg' & Ep).
    destruct (nth_ex cs j) as (cj & Ecj); [lia|].
    pose proof (cur_fwd _ _ _ _ _ _ Cu k ltac:(lia)) as Hf. unfold FwdOk in Hf.
    rewrite (getf_ok _ _ _ Hf); cbn [bind].
    assert (Ed : compute_diff_prop k j eps d2 = Ok (trial_prop eps t gk cj)).
    { unfold compute_diff_prop. rewrite (st_set _ _ _ _ _ _ (inv_st _ _ _ _ _ _ _ I2)), settled_prop, HA.
      rewrite (tau_ok s n m dr c Htau Hpos Hdr Hdrf Hc Hcf Hm Hdiagc Hfr Haug Hdiag a Ha d2 k t (inv_st _ _ _ _ _ _ _ I2) Et). cbn [bind].
      rewrite (phased_gen_ok s n m dr c Htau Hpos Hdr Hdrf Hc Hcf Hm Hdiagc Hfr Haug Hdiag a Ha d2 k gk (inv_st _ _ _ _ _ _ _ I2) (cur_gen _ _ _ _ _ _ Cu k Hk) Eg'). cbn [bind].
      rewrite (phased_ctrl_ok s n m dr c Htau Hpos Hdr Hdrf Hc Hcf Hm Hdiagc Hfr Haug Hdiag a Ha d2 k j cs cj (inv_st _ _ _ _ _ _ _ I2) Ecs Ecj). reflexivity. }
    rewrite Ed. cbn [bind].
    rewrite (st_target _ _ _ _ _ _ (inv_st _ _ _ _ _ _ _ I2)), (st_set _ _ _ _ _ _ (inv_st _ _ _ _ _ _ _ I2)), (settled_scale _ HF).
    cbn [some_or bind].
    destruct (k + 1 <? n) eqn:Ek.
    - apply Nat.ltb_lt in Ek. destruct (cur_onwd _ _ _ _ _ _ Cu HF (k + 1) Ek) as (l & p & El & Epp & Epr).
      rewrite El; cbn [some_or bind]. rewrite (getf_ok _ _ _ Epp); cbn [bind].
      eexists; split; [reflexivity|]. exists t, gk, c, cs, cj. splits; auto.
      unfold code_final. replace (k + 1) with (S k) in Epr by lia. rewrite Epr. reflexivity.
    - apply Nat.ltb_ge in Ek. cbn [bind]. eexists; split; [reflexivity|]. exists t, gk, c, cs, cj. splits; auto.
      unfold code_final. rewrite skipn_all2 by (rewrite (props_length s n m dr c); auto; lia). reflexivity. }
  rewrite Eq. cbn [bind]. eexists _, g. split; [reflexivity|]. split; [split; auto|].
  intros k j Hk Hj. destruct (H k j Hk Hj) as (row & y & Er & Ey & Q). 
  destruct Q as (t & gk & c' & cs & cj & Q). exists y, t, gk, c', cs, cj. split; [|exact Q].
  unfold entry. rewrite Er. exact Ey.
Qed.

(** With any other propagator computer there is no trial propagator. *)
Lemma approx_needs a d eps : s_prop s <> Approx -> 0 < m -> shape n m a -> Good s n m a d -> f_grad_cur (d_fidst d) = false ->
  get_fid_err_gradient_approx eps d = Raise UsageError.
Proof.
  intros HA Hm0 Ha G Eg. pose proof G as (dr & c & Hdr & Hdrf & Hc & Hcf & I).
  destruct W as [Htau Hpos _ _ Hm Hdiagc]. destruct RO as (Hfr & Haug & Hdiag).
  unfold get_fid_err_gradient_approx. rewrite Eg. unfold compute_fid_err_grad_approx.
  rewrite (num_ctrls_ok s n m dr c Htau Hpos Hdr Hdrf Hc Hcf Hm Hdiagc Hfr Haug Hdiag a Ha d (inv_st _ _ _ _ _ _ _ I)). cbn [bind].
  rewrite (n_ts_eq s n m dr c Htau d) by apply I.
  destruct (evo_ok s n m dr c Htau Hpos Hdr Hdrf Hc Hcf Hm Hdiagc Hfr Haug Hdiag a d I) as (d1 & b & -> & I1 & C1 & _). cbn [bind].
  destruct (fid_err_ok s n m dr c Htau Hpos Hdr Hdrf Hc Hcf Hm Hdiagc Hfr Haug Hdiag a d1 I1) as (d2 & E2 & I2). rewrite E2. cbn [bind].
  assert (Q : d_fwd d2 = d_fwd d1).
  { revert E2. unfold get_fid_err. rewrite (st_set _ _ _ _ _ _ (inv_st _ _ _ _ _ _ _ I1)), settled_fid, HF.
    destruct (f_fid_cur (d_fidst d1)).
    - destruct (f_fid_err (d_fidst d1)); cbn; [intros [= <- _]; auto|discriminate].
    - unfold compute_evolution. rewrite C1. cbn [bind]. intros E.
      repeat (apply bind_inv in E; destruct E as (? & _ & E)). injection E as <- _. unfold bump_fid.
      destruct (d_stats _); reflexivity. }
  pose proof (cur_fwd _ _ _ _ _ _ (inv_cur _ _ _ _ _ _ _ I1 C1) 0 ltac:(lia)) as Hf. unfold FwdOk in Hf. rewrite <- Q in Hf.
  unfold fill_grad. destruct m as [|m']; [lia|]. destruct n as [|n']; [lia|].
  unfold range. cbn [seq for_each]. unfold approx_grad_entry at 1.
  rewrite (getf_ok _ _ _ Hf); cbn [bind]. unfold compute_diff_prop.
  rewrite (st_set _ _ _ _ _ _ (inv_st _ _ _ _ _ _ _ I2)), settled_prop.
  destruct (s_prop s); try congruence; reflexivity.
Qed.
End Any.

(** ** Commuting matrices *)
Section Comm.
Context (N : nat).
Lemma mpow_commutes x y k : matrix N N x -> matrix N N y -> mmul x y = mmul y x -> mmul (mpow x k) y = mmul y (mpow x k).
Proof.
  intros [Sx Px] [Sy Py] E. pose proof (proj1 Sx) as Hn. induction k; cbn [mpow].
  - rewrite Hn, (mmul_1_l N N), (mmul_1_r N N); auto.
  - rewrite <- mmul_assoc, IHk, mmul_assoc, E, mmul_assoc. reflexivity.
Qed.
Lemma mexp_commutes x y : matrix N N x -> matrix N N y -> mmul x y = mmul y x -> mmul (mexp x) y = mmul y (mexp x).
Proof.
  intros Hx Hy E. pose proof Hx as [Sx Px]. pose proof Hy as [Sy Py]. apply (mat_ext N N); eauto with mat. intros i j Hi Hj.
  rewrite (mexp_mul_r N N), (mexp_mul_l N N) by auto. apply CSeries_ext. intros n. rewrite mpow_commutes; auto.
Qed.

Definition cent (S : mat -> Prop) (x : mat) : Prop := matrix N N x /\ forall y, matrix N N y -> S y -> mmul x y = mmul y x.
Lemma cent_add S x y z : cent S x -> cent S y -> cent S (madd x (mscal z y)).
Proof.
  intros [[Sx Px] Hx] [[Sy Py] Hy]. split; [split; auto with mat|]. intros w Hw W. pose proof Hw as [Sw Pw].
  rewrite (mmul_add_l N N N), (mmul_add_r N N N), (mmul_scal_l N N N), (mmul_scal_r N N N), Hx, Hy by auto with mat. reflexivity.
Qed.
Lemma cent_scal S x z : cent S x -> cent S (mscal z x).
Proof.
  intros [[Sx Px] Hx]. split; [split; auto with mat|]. intros w Hw W. pose proof Hw as [Sw Pw].
  rewrite (mmul_scal_l N N N), (mmul_scal_r N N N), Hx by auto with mat. reflexivity.
Qed.
Lemma cent_mul S x y : cent S x -> cent S y -> cent S (mmul x y).
Proof.
  intros [[Sx Px] Hx] [[Sy Py] Hy]. split; [split; eauto with mat|]. intros w Hw W.
  rewrite <- mmul_assoc, Hy, mmul_assoc, Hx, <- mmul_assoc by auto. reflexivity.
Qed.
Lemma cent_exp S x : cent S x -> cent S (mexp x).
Proof.
  intros [[Sx Px] Hx]. split; [split; auto with mat|]. intros w Hw W.
  apply mexp_commutes; auto. split; auto.
Qed.
(** The double centraliser of a commuting set commutes. *)
Definition cc (S : mat -> Prop) := cent (cent S).
Lemma cc_incl (S : mat -> Prop) x : matrix N N x -> S x -> cc S x.
Proof. intros Hx H. split; auto. intros y Hy [_ Q]. symmetry. apply Q; auto. Qed.
Lemma cc_comm (S : mat -> Prop) x y : (forall x y, S x -> S y -> mmul x y = mmul y x) -> cc S x -> cc S y -> mmul x y = mmul y x.
Proof.
  intros HS [Mx Hx] [My Hy]. apply Hx; auto. split; auto. intros z Mz Sz. apply Hy; auto. split; auto.
Qed.
End Comm.

Section Mats.
Context (N : nat) (rt : routines) (EX : exact_routines N rt).
Notation A := (MatAlg N rt).
Context (s : settings A) (n m : nat).
Hypothesis SP : sized_problem N rt N s.
Hypothesis W : well_posed s n m.
Hypothesis HD : diag_suits N rt s.
Notation RO := (mat_routines N rt EX N s n m SP HD).

(** The code's trial propagator is the one of the changed amplitude. *)
Lemma trial_is a k j x eps t gk c cs cj : shape n m a -> entry a k j = Some x ->
  nth_error (s_tau s) k = Some t -> nth_error (gens_of s a) k = Some gk ->
  eff_ctrls s = Some c -> nth_error (ctrl_ops (A := A) n c) k = Some cs -> nth_error cs j = Some cj ->
  props_of s (with_entry a k j (x + eps)) = upd (props_of s a) k (trial_prop s eps t gk cj) /\
  trial_prop s eps t gk cj = mexp (phased s t (madd gk (mscal (RtoC eps) cj))) /\ matrix N N gk /\ matrix N N cj.
Proof.
  intros Ha E Et Eg Ec Ecs Ecj. unfold entry in E. destruct (nth_error a k) as [row|] eqn:Er; [|discriminate].
  assert (Hk : k < n) by (destruct Ha as [<- _]; apply nth_lt in Er; auto).
  destruct (props_with_entry N rt EX N s n m SP W HD a k j row (x + eps)%R Ha Er Hk) as (dr & c' & d0 & cs' & t' & E1 & E2 & E3 & E4 & E5 & L & Eg' & Q).
  rewrite Ec in E2. injection E2 as <-. rewrite Et in E5. injection E5 as <-.
  rewrite E4 in Ecs. injection Ecs as ->.
  pose proof (eq_trans (eq_sym Eg) Eg') as QQ. injection QQ as ->.
  pose proof (drift_matrix N rt N s n SP dr k d0 E1 E3) as Hd.
  destruct (ctrl_at N rt _ s n k j c cs cj (sp_gens _ _ _ _ SP) Ec E4 Ecj) as [Hcs Hcj].
  pose proof (lincomb_matrix N rt d0 row cs Hd Hcs) as Hg.
  rewrite (lincomb_upd N rt d0 row cs j x (x + eps)%R cj Hd Hcs E Ecj) in Q.
  replace (x + eps - x)%R with eps in Q by ring.
  assert (T : trial_prop s eps t (lincomb (A := A) d0 row cs) cj =
              propagator s t (madd (lincomb (A := A) d0 row cs) (mscal (RtoC eps) cj))).
  { unfold trial_prop, propagator. rewrite (with_phase_lin N rt s _ _ _ (is_lin N rt N s SP) Hg Hcj). reflexivity. }
  splits; auto. { rewrite T. exact Q. }
  rewrite T. apply (prop_is N rt EX N s SP). apply matrix_closed; auto.
Qed.

Lemma prod_cc (P : mat -> Prop) ps q : (forall x y, P x -> P y -> P (mmul x y)) -> Forall P ps -> product (A := A) ps = Some q -> P q.
Proof.
  intros HP F. revert q. induction F as [|p ps Hp F IH]; intros q E; [discriminate|]. cbn [product] in E. destruct ps as [|p' ps].
  - injection E as <-. auto.
  - destruct (product (A := A) (p' :: ps)) as [y|]; [|discriminate]. injection E as <-. apply HP; auto.
Qed.
Lemma evolve_cc (P : mat -> Prop) ps x : (forall x y, P x -> P y -> P (mmul x y)) -> Forall P ps -> P x -> P (evolve (A := A) ps x).
Proof. intros HP F. revert x. induction F as [|p ps Hp F IH]; intros x Hx; [exact Hx|]. apply (IH (mmul p x)). apply HP; auto. Qed.

Lemma phase_cc (S : mat -> Prop) g : matrix N N g -> cc N S g ->
  match s_phase s with Some (PhOp p) => S p | _ => True end -> cc N S (with_phase s g).
Proof.
  intros Mg Hg Hp. destruct (is_lin N rt N s SP) as [L1 L2]. unfold with_phase.
  destruct (s_phase s) as [[z|p]|]; [| |auto].
  - destruct (s_phapp s); [| |tauto]; apply cent_scal; auto.
  - assert (cc N S p) by (apply cc_incl; auto). destruct (s_phapp s); [| |tauto]; apply cent_mul; auto.
Qed.

Lemma code_final_commuting a k j x eps t gk c cs cj : commuting_problem N rt s -> shape n m a -> entry a k j = Some x ->
  nth_error (s_tau s) k = Some t -> nth_error (gens_of s a) k = Some gk ->
  eff_ctrls s = Some c -> nth_error (ctrl_ops (A := A) n c) k = Some cs -> nth_error cs j = Some cj ->
  code_final s a k (trial_prop s eps t gk cj) = final_of s (with_entry a k j (x + eps)).
Proof.
  intros (S & SM & SC & SG & SI & Sph) Ha E Et Eg Ec Ecs Ecj.
  destruct (trial_is a k j x eps t gk c cs cj Ha E Et Eg Ec Ecs Ecj) as (Q & T & Mg & Mc).
  assert (Hk : k < n).
  { unfold entry in E. destruct (nth_error a k) as [row|] eqn:Er; [|discriminate]. destruct Ha as [<- _]; apply nth_lt in Er; auto. }
  assert (GC : generators_all N rt (cc N S) s).
  { destruct SG as [G1 G2]. split.
    - intros d Hd. specialize (G1 d Hd). destruct d; cbn in *; [apply cc_incl; auto|].
      eapply Forall_impl; [|exact G1]. intros; apply cc_incl; auto.
    - intros d Hd. specialize (G2 d Hd). destruct d; cbn in *; [eapply Forall_impl; [|exact G2]; intros; apply cc_incl; auto|].
      eapply Forall_impl; [|exact G2]. intros r Hr. eapply Forall_impl; [|exact Hr]. intros; apply cc_incl; auto. }
  assert (FG : Forall (cc N S) (gens_of s a)) by (apply (gens_closed N rt (cc N S) s a); auto; intros; apply cent_add; auto).
  assert (Hp : forall t g, cc N S g -> cc N S (propagator s t g)).
  { intros t' g Hg. pose proof Hg as [M _]. rewrite (prop_is N rt EX N s SP t' g M). apply cent_exp, cent_scal, phase_cc; auto. }
  assert (FP : Forall (cc N S) (props_of s a)).
  { apply Forall_forall. intros p Hpp. apply In_nth_error in Hpp as [i Ei].
    assert (Hi : i < n) by (destruct (mlens N rt EX N s n m SP W HD a Ha) as [QL _]; rewrite <- QL; eapply nth_lt; eauto).
    destruct (mslot N rt EX N s n m SP W HD a i Ha Hi) as (dr' & c' & d0' & row & cs' & t' & g & _ & _ & _ & _ & _ & _ & _ & _ & _ & Eg' & Ep).
    pose proof (eq_trans (eq_sym Ei) Ep) as QQ. injection QQ as ->. apply Hp.
    rewrite Forall_forall in FG. eapply FG, nth_error_In; eauto. }
  assert (GK : cc N S gk) by (rewrite Forall_forall in FG; eapply FG, nth_error_In; eauto).
  assert (CK : cc N S cj) by (eapply (ctrl_at N rt (cc N S)); eauto).
  assert (TP : cc N S (trial_prop s eps t gk cj)).
  { rewrite T. apply cent_exp, cent_scal, phase_cc; auto; [apply matrix_closed; auto|apply cent_add; auto]. }
  set (P := trial_prop s eps t gk cj) in *. clearbody P.
  assert (HX : cc N S (evolve (A := A) (firstn k (props_of s a)) (s_initial s))).
  { apply evolve_cc; [intros; apply cent_mul; auto|apply Forall_firstn; auto|apply cc_incl; auto]. }
  unfold final_of. rewrite Q, evolve_upd by (destruct (mlens N rt EX N s n m SP W HD a Ha) as [QL _]; rewrite <- QL in Hk; exact Hk).
  unfold code_final. set (X := evolve (A := A) (firstn k (props_of s a)) (s_initial s)) in *.
  destruct (product (A := A) (skipn (Datatypes.S k) (props_of s a))) as [Y|] eqn:EY.
  - pose proof (product_evolve (massoc N rt) _ Y (mmul P X) EY) as QE. refine (eq_trans _ QE). cbn [omul MatAlg].
    rewrite (cc_comm N S X P) by auto. apply (cc_comm N S); auto.
    + apply cent_mul; auto.
    + eapply (prod_cc (cc N S)); [|apply Forall_skipn, FP|exact EY]. intros; apply cent_mul; auto.
  - assert (Z : skipn (Datatypes.S k) (props_of s a) = []).
    { revert EY. generalize (skipn (Datatypes.S k) (props_of s a)) as l. induction l as [|p l IH]; auto. cbn [product].
      destruct l; [discriminate|]. destruct (product _); [discriminate|]. intros _. specialize (IH eq_refl). discriminate. }
    refine (eq_trans _ (f_equal (fun l => evolve (A := A) l (mmul P X)) (eq_sym Z))). apply (cc_comm N S); auto.
Qed.

Lemma code_final_one a k j x eps t gk c cs cj : n = 1 -> s_initial s = mid N -> shape n m a -> entry a k j = Some x ->
  nth_error (s_tau s) k = Some t -> nth_error (gens_of s a) k = Some gk ->
  eff_ctrls s = Some c -> nth_error (ctrl_ops (A := A) n c) k = Some cs -> nth_error cs j = Some cj ->
  code_final s a k (trial_prop s eps t gk cj) = final_of s (with_entry a k j (x + eps)).
Proof.
  intros Hn HI Ha E Et Eg Ec Ecs Ecj.
  destruct (trial_is a k j x eps t gk c cs cj Ha E Et Eg Ec Ecs Ecj) as (Q & T & Mg & Mc).
  assert (Hk : k < n).
  { unfold entry in E. destruct (nth_error a k) as [row|] eqn:Er; [|discriminate]. destruct Ha as [<- _]; apply nth_lt in Er; auto. }
  destruct (mlens N rt EX N s n m SP W HD a Ha) as [QL _]. assert (k = 0) by lia. subst k.
  destruct (phased_matrix N rt s t _ (is_lin N rt N s SP) (matrix_closed N gk cj eps Mg Mc)) as [SZ PZ].
  set (P := trial_prop s eps t gk cj) in *. 
  assert (MP : matrix N N P) by (rewrite T; split; auto with mat). clearbody P. destruct MP as [SPp PP].
  unfold final_of, code_final. rewrite Q. destruct (props_of s a) as [|p0 [|p1 ps]] eqn:Eps; cbn in QL; try lia.
  cbn. rewrite HI, (mmul_1_l N N), (mmul_1_r N N) by auto. reflexivity.
Qed.

Lemma approx_fd st eps a ops : s_fid s = FTrace -> s_prop s = Approx -> shape n m a -> Forall (call_ok s n m) ops ->
  (forall k j x t gk c cs cj, entry (latest a ops) k j = Some x ->
    nth_error (s_tau s) k = Some t -> nth_error (gens_of s (latest a ops)) k = Some gk ->
    eff_ctrls s = Some c -> nth_error (ctrl_ops (A := A) n c) k = Some cs -> nth_error cs j = Some cj ->
    code_final s (latest a ops) k (trial_prop s eps t gk cj) = final_of s (with_entry (latest a ops) k j (x + eps))) ->
  exists d d1 g, session s st a ops = Ok d /\ get_fid_err_gradient_approx eps d = Ok (d1, g) /\
    shape n m g /\ difference_quotients s st eps (latest a ops) g.
Proof.
  intros HF HA Ha F HC. pose proof (latest_shape s n m a ops Ha F) as Hl.
  destruct (session_ok s n m W RO st a ops Ha F) as (d & E & G & _).
  destruct (approx_gradient s n m W RO HF (latest a ops) d eps HA Hl G) as (d1 & g & E1 & Hg & Q).
  exists d, d1, g. splits; auto. intros k j x Ex.
  assert (Hkj : k < n /\ j < m).
  { unfold entry in Ex. destruct (nth_error (latest a ops) k) as [row|] eqn:Er; [|discriminate]. destruct Hl as [L FL]. split.
    - rewrite <- L. eapply nth_lt; eauto.
    - rewrite Forall_forall in FL. rewrite <- (FL row) by (eapply nth_error_In; eauto). eapply nth_lt; eauto. }
  destruct (Q k j (proj1 Hkj) (proj2 Hkj)) as (y & t & gk & c & cs & cj & Ey & Et & Eg & Ec & Ecs & Ecj & Yv).
  exists y, (fid_err_of s (latest a ops)), (fid_err_of s (with_entry (latest a ops) k j (x + eps))). splits; auto.
  - destruct (session_values s n m W RO st _ [] Hl (Forall_nil _)) as (e & e1 & _ & Q1 & Q2 & _). exists e, e1. auto.
  - destruct (session_values s n m W RO st _ [] (with_entry_shape n m _ k j (x + eps) Hl) (Forall_nil _)) as (e & e1 & _ & Q1 & Q2 & _).
    exists e, e1. auto.
  - rewrite Yv. rewrite (HC k j x t gk c cs cj Ex Et Eg Ec Ecs Ecj).
    unfold fid_err_of at 2. rewrite HF. reflexivity.
Qed.
End Mats.

Lemma initialize_fresh {A : Alg} a (d d' : dyn A) : initialize_controls a d = Ok d' -> f_grad_cur (d_fidst d') = false.
Proof.
  unfold initialize_controls; intros H.
  apply bind_inv in H; destruct H as (d1 & E & H). apply init_evo_amps in E; cbn in E.
  unfold update_ctrl_amps, compare_amps in H.
  assert (Q : d_amps (fid_init_comp d1) = d_amps d1)
    by (unfold fid_init_comp; destruct (s_fid (d_set d1)); auto; destruct (s_scale (d_set d1)); auto).
  cbn in H. rewrite Q, E in H. cbn in H. injection H as <-.
  destruct (d_stats (fid_init_comp d1)); reflexivity.
Qed.

(** The exponential of a matrix whose square vanishes. *)
Lemma mexp_nilpotent N x : matrix N N x -> mmul x x = mzero N N -> mexp x = madd (mid N) x.
Proof.
  intros [Sx Px] Z. pose proof (proj1 Sx) as Hn.
  assert (P2 : forall k, mpow x (S (S k)) = mzero N N).
  { induction k as [|k IH].
    - cbn [mpow]. rewrite Hn, (mmul_1_r N N) by auto. exact Z.
    - change (mpow x (S (S (S k)))) with (mmul x (mpow x (S (S k)))). rewrite IH.
      apply (mat_ext N N); eauto with mat. intros i j Hi Hj. rewrite (mmul_ent N N N) by eauto with mat.
      unfold mzero at 2. rewrite ent_tab by auto. transitivity (csum N (fun _ => RtoC 0)).
      + apply csum_ext. intros l Hl. unfold mzero. rewrite ent_tab by auto. ring.
      + clear. induction N as [|N IHN]; cbn; [reflexivity|]. rewrite IHN. ring. }
  apply (mat_ext N N); auto with mat. intros i j Hi Hj. pose proof (exp_cvg N x i j Sx Hi Hj) as Cv.
  rewrite (mexp_ent N) by auto. rewrite CSeries_shift by auto.
  rewrite (CSeries_single (fun n => ifact (S n) * ent (mpow x (S n)) i j)%C).
  - rewrite (madd_ent N N) by auto with mat. cbn [mpow]. rewrite Hn, (mmul_1_r N N) by auto. unfold ifact. cbn.
    rewrite !Rinv_1. ring.
  - intros k. rewrite P2. unfold mzero. rewrite ent_tab by auto. ring.
Qed.
