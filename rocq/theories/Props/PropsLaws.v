(** Properties C76 to C79: laws that the reported evolution obeys.

    See [Spec/Laws.v] for the words used, [Spec/Physics.v] for [reports]
    (what an object says after a history of calls) and [ready]. *)
From Coq Require Import Reals Lra.
From Coquelicot Require Import Coquelicot.
From RecordUpdate Require Import RecordUpdate.
From Verif.Model Require Import Base Dyn.
From Verif.Lib Require Import Lists Csum Mat MExp MCalc MDiag.
From Verif.Spec Require Import Evolution History MatAlg Qubit Physics Laws.
From Verif.Proofs Require Import DynInv DynRun DynHist DynHistory DynProps DynMore MatFacts MatGrad MatProps QubitFacts
  PhysFacts PhysRotate PhysCut PhysCutGrad PhysShift LawFacts.
From Verif.Props Require Import PropsMatrix PropsPhysics.
Local Open Scope nat_scope.
Set Bullet Behavior "Strict Subproofs".

(** ** C76: conserved quantities and symmetries *)
(** What the drift and all controls conserve is conserved, for every pulse:
    e.g. the trace of a density operator under Liouvillians. *)
Theorem C76_conserved N rt q (s : settings (MatAlg N rt)) n m r w st a ops :
  exact_routines N rt -> ready N rt q s n m a ops -> matrix r N w -> conserved N rt r w s ->
  exists U v, reports s st a ops U v /\ mmul w U = mmul w (s_initial s).
Proof.
  intros EX H Hw HC. exists (final_of s (latest a ops)), (fid_err_of s (latest a ops)). split; [eapply report; eauto|].
  destruct H. eapply conserved_final; eauto.
Qed.
(** An initial state that none of the operators changes stays, for every pulse. *)
Theorem C76_stationary N rt q (s : settings (MatAlg N rt)) n m st a ops :
  exact_routines N rt -> ready N rt q s n m a ops -> stationary N rt q s ->
  exists v, reports s st a ops (s_initial s) v.
Proof.
  intros EX H HC. exists (fid_err_of s (latest a ops)). pose proof (report N rt EX q s n m st a ops H) as R.
  destruct H. rewrite (stationary_final N rt EX q s) in R; auto.
Qed.
(** A map between two systems that turns the operators of the one into those
    of the other turns the reported evolution into the reported evolution. *)
Theorem C76_carried N M rt rt' q (s : settings (MatAlg N rt)) (s' : settings (MatAlg M rt')) n m w st st' a a' ops ops' :
  exact_routines N rt -> exact_routines M rt' -> ready N rt q s n m a ops -> ready M rt' q s' n m a' ops' ->
  matrix M N w -> carries N M rt rt' w s s' -> latest a' ops' = latest a ops ->
  exists U v v', reports s st a ops U v /\ reports s' st' a' ops' (mmul w U : Op (MatAlg M rt')) v'.
Proof.
  intros EX EX' H H' Hw HC L. exists (final_of s (latest a ops)), (fid_err_of s (latest a ops)), (fid_err_of s' (latest a' ops')).
  split; [eapply report; eauto|]. pose proof (report M rt' EX' q s' n m st' a' ops' H') as R. destruct H, H'.
  rewrite (carried N M rt rt' EX EX' q s s' n m w) in R; auto. rewrite L in R at 1. exact R.
Qed.

(** Cases: rate equations of two levels, and the decay of their difference. *)
Lemma rates_exact N : exact_routines N plain_routines.
Proof. apply plain_exact; auto. Qed.
Definition rates_problem (N : nat) (g c x : mat) : settings (MatAlg N plain_routines) := {|
  s_class := GenMat;
  s_drift := Some (DConst (g : Op (MatAlg N plain_routines)));
  s_ctrls := Some (CList [(c : Op (MatAlg N plain_routines))]);
  s_drift_ham := None; s_ctrl_ham := None;
  s_initial := x; s_target := x; s_tau := [(1/2)%R; (1/2)%R];
  s_phase := None; s_phapp := PreOp; s_dtype := DNdarray;
  s_cache_ph := true; s_cache_pg := true; s_cache_adj := true; s_prec := (1/10)%R;
  s_prop := Frechet; s_fid := FTrace; s_phopt := PSU; s_scale := None; s_dim := N |}.
Lemma rates_ready N q g c x : matrix N N g -> matrix N N c -> matrix N q x ->
  ready N plain_routines q (rates_problem N g c x) 2 1 qx_amps qx_ops.
Proof.
  intros Hg Hc Hx. constructor.
  - constructor; auto; try discriminate; [eexists; split; reflexivity|eexists; split; reflexivity].
  - constructor; try exact I; auto. split; intros ? [= <-]; repeat constructor; (apply Hg || apply Hc).
  - intros E; discriminate.
  - split; auto; repeat constructor.
  - repeat constructor; cbn; auto; discriminate.
Qed.
(** Both levels decay into each other at rate 1; the control makes level 0
    decay into level 1. *)
Definition exchange : mat := mat2 (RtoC (-1)) (RtoC 1) (RtoC 1) (RtoC (-1)).
Definition decay : mat := mat2 (RtoC (-1)) (RtoC 0) (RtoC 1) (RtoC 0).
Definition row2 (x y : R) : mat := tab 1 2 (fun _ j => match j with 0 => RtoC x | _ => RtoC y end).
Definition column2 (x y : R) : mat := tab 2 1 (fun i _ => match i with 0 => RtoC x | _ => RtoC y end).
Definition number (x : R) : mat := tab 1 1 (fun _ _ => RtoC x).
Lemma mat2_matrix a b c d : matrix 2 2 (mat2 a b c d).
Proof. split; [split; auto|apply tab_proper]. Qed.
Ltac small r c := cbn [s_initial rates_problem]; unfold exchange, decay, row2, column2, number, mat2, sigma_x, mzero, with_phase; cbn [s_phase rates_problem];
  apply (mat_ext r c); try (split; [reflexivity|reflexivity]); try apply tab_proper; try (split; reflexivity);
  intros [|[|i]] [|[|j]] Hi Hj; try lia;
  first [rewrite !(mmul_ent 1 2 2) by (auto; split; reflexivity)|rewrite !(mmul_ent 2 2 1) by (auto; split; reflexivity)|idtac];
  try rewrite !(mmul_ent 1 1 2) by (auto; split; reflexivity); cbn [csum]; rewrite !ent_tab by lia; apply injective_projections; cbn; ring.
Example C76_conserved_case : ready 2 plain_routines 1 (rates_problem 2 exchange decay (column2 (1/3) (2/3))) 2 1 qx_amps qx_ops /\
  matrix 1 2 (row2 1 1) /\ conserved 2 plain_routines 1 (row2 1 1) (rates_problem 2 exchange decay (column2 (1/3) (2/3))).
Proof.
  splits.
  - apply rates_ready; try apply mat2_matrix. split; [split; auto|apply tab_proper].
  - split; [split; auto|apply tab_proper].
  - split; intros ? [= <-]; repeat constructor; small 1 2.
Qed.
Example C76_stationary_case :
  let s := rates_problem 2 exchange exchange (column2 (1/2) (1/2)) in
  ready 2 plain_routines 1 s 2 1 qx_amps qx_ops /\ stationary 2 plain_routines 1 s.
Proof.
  cbv zeta. splits.
  - apply rates_ready; try apply mat2_matrix. split; [split; auto|apply tab_proper].
  - split; intros ? [= <-]; repeat constructor; small 2 1.
Qed.
(** The difference of the populations: decays at rate 2, and changes its sign
    under sigma_x. *)
Example C76_carried_case :
  let s := rates_problem 2 exchange sigma_x (column2 (1/3) (2/3)) in
  let s' := rates_problem 1 (number (-2)) (number (-1)) (number (1/3 - 2/3)) in
  ready 2 plain_routines 1 s 2 1 qx_amps qx_ops /\ ready 1 plain_routines 1 s' 2 1 qx_amps qx_ops /\
  matrix 1 2 (row2 1 (-1)) /\ carries 2 1 plain_routines plain_routines (row2 1 (-1)) s s'.
Proof.
  cbv zeta. splits.
  - apply rates_ready; try apply mat2_matrix. split; [split; auto|apply tab_proper].
  - apply rates_ready; (split; [split; auto|apply tab_proper]).
  - split; [split; auto|apply tab_proper].
  - constructor; auto.
    + do 2 eexists. split; [reflexivity|]. split; [reflexivity|]. repeat constructor; small 1 2.
    + do 2 eexists. split; [reflexivity|]. split; [reflexivity|]. repeat constructor; small 1 2.
    + unfold number, row2, column2. cbn [s_initial rates_problem]. apply (mat_ext 1 1); try (split; reflexivity); try apply tab_proper.
      intros [|i] [|j] Hi Hj; try lia. rewrite (mmul_ent 1 2 1) by (auto; split; reflexivity). cbn [csum]. rewrite !ent_tab by lia.
      apply injective_projections; cbn; ring.
Qed.

(** ** C77: running backwards *)
Theorem C77_backwards N rt q (s : settings (MatAlg N rt)) n m st st' a b ops ops' :
  exact_routines N rt -> ready N rt q s n m a ops -> shape n m b -> Forall (call_ok s n m) ops' -> latest b ops' = rev (latest a ops) ->
  exists U v v', reports s st a ops U v /\ reports (starting U (backwards s)) st' b ops' (s_initial s) v'.
Proof.
  intros EX H Hb F' L. pose proof (shape_latest N rt q s n m a ops H) as Hl. pose proof H as [W SP HD Ha F].
  set (U := final_of s (latest a ops)). exists U, (fid_err_of s (latest a ops)), (fid_err_of (starting U (backwards s)) (latest b ops')).
  split; [eapply report; eauto|].
  assert (H' : ready N rt q (starting U (backwards s)) n m b ops').
  { constructor; auto.
    - apply starting_well. apply back_well; auto.
    - apply starting_sized; [eapply back_sized; eauto|]. apply (final_matrix N rt EX q s n m); auto.
    - apply starting_suits. eapply back_suits; eauto. }
  pose proof (report N rt EX q _ n m st' b ops' H') as R. rewrite L in R at 1. unfold U in R at 2. rewrite (back_final N rt EX q s n m) in R; auto.
Qed.
Example C77_case T f po : matrix 2 2 T -> let s := qubit T Diag f po (1/10) in
  ready 2 qubit_routines 2 s 2 1 qx_amps [] /\ shape 2 1 [[2%R]; [1%R]] /\ latest [[2%R]; [1%R]] [] = rev (latest qx_amps []) /\
  eff_drift (backwards s) = Some (DList [(mscal (RtoC (-1)) sigma_z : Op QAlg); (mscal (RtoC (-1)) sigma_z : Op QAlg)]).
Proof.
  intros HT s. destruct (ready_case T Diag f po (1/10)) as ([] & _); auto; try discriminate; try lra.
  splits; auto; [constructor; auto|split; auto; repeat constructor].
Qed.

(** ** C78: one problem after another *)
Lemma nth_error_skipn_at {X} (l : list X) n k : nth_error (skipn n l) k = nth_error l (n + k).
Proof. revert l. induction n; intros [|x l]; cbn; auto. destruct k; auto. Qed.
Theorem C78_joined N rt q (s s' : settings (MatAlg N rt)) n n' m st st' stj a a' b ops ops' opsj :
  exact_routines N rt -> ready N rt q s n m a ops -> ready N rt q s' n' m a' ops' -> like s s' ->
  shape (n + n') m b -> Forall (call_ok (joined s s') (n + n') m) opsj ->
  latest b opsj = latest a ops ++ latest a' ops' ->
  exists U v U' v', reports s st a ops U v /\ reports (starting U s') st' a' ops' U' v' /\
    reports (joined s s') stj b opsj U' v' /\
    (exact_gradients N rt s' (latest a' ops') -> exact_gradients N rt (joined s s') (latest b opsj) ->
     exists g g', reports_gradient (starting U s') st' a' ops' g' /\ reports_gradient (joined s s') stj b opsj g /\
       shape (n + n') m g /\ skipn n g = g').
Proof.
  intros EX H H' LK Hb Fb L. pose proof (shape_latest N rt q s n m a ops H) as Hl. pose proof (shape_latest N rt q s' n' m a' ops' H') as Hl'.
  pose proof H as [W SP HD Ha F]. pose proof H' as [W' SP' HD' Ha' F'].
  set (U := final_of s (latest a ops)). set (s2 := starting U s').
  assert (H2 : ready N rt q s2 n' m a' ops').
  { constructor; auto.
    - apply starting_well; auto.
    - apply starting_sized; auto. apply (final_matrix N rt EX q s n m); auto.
    - apply starting_suits; auto. }
  assert (HJ : ready N rt q (joined s s') (n + n') m b opsj).
  { constructor; auto; [eapply joined_well; eauto|eapply joined_sized; eauto|eapply joined_suits; eauto]. }
  exists U, (fid_err_of s (latest a ops)), (final_of s2 (latest a' ops')), (fid_err_of s2 (latest a' ops')).
  splits.
  - eapply report; eauto.
  - eapply report; eauto.
  - pose proof (report N rt EX q _ (n + n') m stj b opsj HJ) as R. rewrite L in R.
    rewrite (joined_final N rt EX q s s' n n' m), (joined_err N rt EX q s s' n n' m) in R; auto.
  - intros X' XJ. destruct (gradient N rt EX q s2 n' m st' a' ops' H2 X') as (g' & R' & [G1' G2'] & S').
    destruct (gradient N rt EX q _ (n + n') m stj b opsj HJ XJ) as (g & R & [G1 G2] & S). exists g, g'. splits; auto.
    destruct S as [S1 S2]. symmetry. apply (rows_eq n' m); auto.
    { split; [rewrite skipn_length, S1; lia|apply Forall_skipn; auto]. }
    intros k j Hk Hj. unfold entry. rewrite nth_error_skipn_at. rewrite G2', G2, L. symmetry. eapply joined_entry; eauto.
Qed.
(** The qubit, and then the qubit with a longer slot. *)
Definition qubit_after (T : mat) f po : settings QAlg := qubit T Frechet f po (1/10) <| s_tau := [1%R] |> <| s_drift := Some (DConst (mscal (RtoC 2) sigma_z : Op QAlg)) |>.
Example C78_case T f po : matrix 2 2 T -> let s := qubit T Frechet f po (1/10) in let s' := qubit_after T f po in
  ready 2 qubit_routines 2 s 2 1 qx_amps qx_ops /\ ready 2 qubit_routines 2 s' 1 1 [[3%R]] [] /\ like s s' /\
  shape 3 1 [[0%R]; [0%R]; [3%R]] /\ latest [[0%R]; [0%R]; [3%R]] [] = latest qx_amps qx_ops ++ latest [[3%R]] [] /\
  exact_gradients 2 qubit_routines s' (latest [[3%R]] []) /\ exact_gradients 2 qubit_routines (joined s s') (latest [[0%R]; [0%R]; [3%R]] []) /\
  s_tau (joined s s') = [(1/2)%R; (1/2)%R; 1%R].
Proof.
  intros HT s s'. destruct (ready_case T Frechet f po (1/10)) as (H1 & H2 & H3); auto; try discriminate; try lra.
  pose proof sigma_x_herm as [Mx _]. pose proof sigma_z_herm as [[Sz Pz] _].
  assert (XG : forall s0 : settings QAlg, s_prop s0 = Frechet -> forall b, exact_gradients 2 qubit_routines s0 b).
  { intros s0 E b. split; [congruence|intros E'; congruence]. }
  splits; auto.
  - constructor.
    + constructor; auto; [eexists; split; reflexivity|eexists; split; reflexivity].
    + destruct (rd_sized _ _ _ _ _ _ _ _ H1). constructor; auto. split; intros ? [= <-]; repeat constructor; try apply Mx; auto with mat.
    + intros E; discriminate.
    + split; auto; repeat constructor.
    + constructor.
  - constructor; auto.
  - split; auto; repeat constructor.
Qed.

(** ** C79: linearity *)
Theorem C79_superposition N rt q (s : settings (MatAlg N rt)) n m x y al be st st1 st2 a a1 a2 ops ops1 ops2 :
  exact_routines N rt -> ready N rt q (starting (x : Op (MatAlg N rt)) s) n m a1 ops1 ->
  ready N rt q (starting (y : Op (MatAlg N rt)) s) n m a2 ops2 ->
  shape n m a -> Forall (call_ok s n m) ops ->
  latest a1 ops1 = latest a ops -> latest a2 ops2 = latest a ops ->
  exists U1 v1 U2 v2 v, reports (starting (x : Op (MatAlg N rt)) s) st1 a1 ops1 U1 v1 /\
    reports (starting (y : Op (MatAlg N rt)) s) st2 a2 ops2 U2 v2 /\
    reports (starting (madd (mscal al x) (mscal be y) : Op (MatAlg N rt)) s) st a ops (madd (mscal al U1) (mscal be U2) : Op (MatAlg N rt)) v.
Proof.
  intros EX H1 H2 Ha F L1 L2. pose proof (shape_latest N rt q _ n m a1 ops1 H1) as Hl. rewrite L1 in Hl.
  pose proof (sp_initial _ _ _ _ (rd_sized _ _ _ _ _ _ _ _ H1)) as Hx. pose proof (sp_initial _ _ _ _ (rd_sized _ _ _ _ _ _ _ _ H2)) as Hy.
  assert (H : ready N rt q (starting (madd (mscal al x) (mscal be y) : Op (MatAlg N rt)) s) n m a ops).
  { destruct H1 as [W SP HD _ _]. constructor; auto.
    - apply (starting_well N rt _ n m (madd (mscal al x) (mscal be y)) W).
    - apply (starting_sized N rt q _ (madd (mscal al x) (mscal be y)) SP). destruct Hx, Hy. split; cbn; auto with mat.
    - apply (starting_suits N rt _ (madd (mscal al x) (mscal be y)) HD). }
  do 5 eexists. splits; [eapply report; eauto|eapply report; eauto|].
  pose proof (report N rt EX q _ n m st a ops H) as R. destruct H1 as [W SP HD _ _].
  rewrite L1, L2. pose proof (superposed_final N rt EX q _ n m SP W HD (latest a ops) al be x y Hl Hx Hy) as E.
  change (starting (A := MatAlg N rt) (madd (mscal al x) (mscal be y)) (starting (A := MatAlg N rt) x s)) with (starting (A := MatAlg N rt) (madd (mscal al x) (mscal be y)) s) in E.
  rewrite E in R. exact R.
Qed.
Example C79_superposition_case T f po : matrix 2 2 T -> let s := qubit T Diag f po (1/10) in
  ready 2 qubit_routines 2 (starting (mid 2 : Op QAlg) s) 2 1 qx_amps qx_ops /\ ready 2 qubit_routines 2 (starting (sigma_x : Op QAlg) s) 2 1 zeros [] /\
  latest qx_amps qx_ops = latest zeros [].
Proof.
  intros HT s. destruct (ready_case T Diag f po (1/10)) as (H1 & H2 & H3); auto; try discriminate; try lra.
  pose proof sigma_x_herm as [Mx _]. splits; auto. destruct H1 as [W SP HD Ha F]. constructor; auto.
  - apply starting_well; auto.
  - apply starting_sized; auto.
  - apply starting_suits; auto.
  - split; auto; repeat constructor.
Qed.
(** Picked or combined columns of the initial operator (states of a basis). *)
Theorem C79_combined N rt q r (s : settings (MatAlg N rt)) n m e st st' a a' ops ops' :
  exact_routines N rt -> ready N rt q s n m a ops -> matrix q r e -> shape n m a' -> Forall (call_ok s n m) ops' ->
  latest a' ops' = latest a ops ->
  exists U v v', reports s st a ops U v /\ reports (combined N rt e s) st' a' ops' (mmul U e : Op (MatAlg N rt)) v'.
Proof.
  intros EX H He Ha' F' L. pose proof H as [W SP HD Ha F]. do 3 eexists. split; [eapply report; eauto|].
  assert (H' : ready N rt r (combined N rt e s) n m a' ops').
  { constructor; auto; [apply comb_well; auto|eapply comb_sized; eauto|apply comb_suits; auto]. }
  pose proof (report N rt EX r _ n m st' a' ops' H') as R. rewrite comb_final in R. rewrite L in R at 1. exact R.
Qed.
(** The error and the gradient of the trace difference fidelity are the sums
    of those of the columns. *)
Theorem C79_columns N rt q (s : settings (MatAlg N rt)) n m st st' a a' ops ops' :
  exact_routines N rt -> ready N rt q s n m a ops -> s_fid s = FTrace ->
  shape n m a' -> Forall (call_ok s n m) ops' -> latest a' ops' = latest a ops ->
  (exists U vs, length vs = q /\ reports s st a ops U (total vs) /\
    forall i v, nth_error vs i = Some v ->
      reports (combined N rt (unit_column q i) s) st' a' ops' (mmul U (unit_column q i) : Op (MatAlg N rt)) v) /\
  (exact_gradients N rt s (latest a ops) -> exists g gs, length gs = q /\ reports_gradient s st a ops g /\
    (forall i gi, nth_error gs i = Some gi -> reports_gradient (combined N rt (unit_column q i) s) st' a' ops' gi) /\
    forall k j y, entry g k j = Some y -> exists ys, length ys = q /\ total ys = y /\
      forall i gi, nth_error gs i = Some gi -> entry gi k j = nth_error ys i).
Proof.
  intros EX H HF Ha' F' L. pose proof H as [W SP HD Ha F]. pose proof (shape_latest N rt q s n m a ops H) as Hl.
  assert (H' : forall i, ready N rt 1 (combined N rt (unit_column q i) s) n m a' ops').
  { intros i. constructor; auto; [apply comb_well; auto|eapply comb_sized; eauto; apply unit_column_matrix|apply comb_suits; auto]. }
  assert (SQ : forall (i : nat) (X : Type) (f : nat -> X) x, nth_error (map f (seq 0 q)) i = Some x -> i < q /\ x = f i).
  { intros i X f x E. assert (Hi : i < q).
    { rewrite <- (seq_length q 0), <- (map_length f). apply nth_error_Some. congruence. }
    split; auto. rewrite nth_error_map, (nth_error_nth' _ 0) in E by (rewrite seq_length; auto). rewrite seq_nth in E by auto. cbn in E. congruence. }
  split.
  - exists (final_of s (latest a ops)), (map (fun i => fid_err_of (combined N rt (unit_column q i) s) (latest a ops)) (seq 0 q)). splits.
    + rewrite map_length. apply seq_length.
    + rewrite <- (columns_err N rt EX q s n m SP W HD HF (latest a ops) Hl). eapply report; eauto.
    + intros i v E. apply SQ in E as [Hi ->]. pose proof (report N rt EX 1 _ n m st' a' ops' (H' i)) as R. rewrite comb_final, L in R. exact R.
  - intros X. destruct (gradient N rt EX q s n m st a ops H X) as (g & R & [G1 G2] & S).
    assert (HC : forall i, exists gi, reports_gradient (combined N rt (unit_column q i) s) st' a' ops' gi /\
      forall k j, entry gi k j = grad_entry_of (dprop (A := MatAlg N rt) mdexp (combined N rt (unit_column q i) s)) (combined N rt (unit_column q i) s) (latest a ops) k j).
    { intros i. destruct (gradient N rt EX 1 _ n m st' a' ops' (H' i)) as (gi & Ri & [_ Gi] & _); [rewrite L; exact X|].
      exists gi. split; auto. intros k j. unfold entry. rewrite Gi, L. auto. }
    assert (HS : exists gs, length gs = q /\ forall i gi, nth_error gs i = Some gi -> i < q /\ reports_gradient (combined N rt (unit_column q i) s) st' a' ops' gi /\
      forall k j, entry gi k j = grad_entry_of (dprop (A := MatAlg N rt) mdexp (combined N rt (unit_column q i) s)) (combined N rt (unit_column q i) s) (latest a ops) k j).
    { assert (HP : forall p, exists gs, length gs = p /\ forall i gi, nth_error gs i = Some gi -> i < p /\ reports_gradient (combined N rt (unit_column q i) s) st' a' ops' gi /\
        forall k j, entry gi k j = grad_entry_of (dprop (A := MatAlg N rt) mdexp (combined N rt (unit_column q i) s)) (combined N rt (unit_column q i) s) (latest a ops) k j).
      { induction p as [|p (gs & Lg & IH)]; [exists []; split; auto; intros [|i] gi E; discriminate|].
        destruct (HC p) as (gp & Rp & Gp). exists (gs ++ [gp]). split; [rewrite app_length; cbn; lia|]. intros i gi E.
        destruct (Nat.lt_ge_cases i p) as [Hi|Hi].
        - rewrite nth_error_app1 in E by lia. destruct (IH i gi E) as (? & ? & ?). splits; auto.
        - rewrite nth_error_app2 in E by lia. rewrite Lg in E. destruct (i - p) as [|z] eqn:Ez; [|destruct z; discriminate].
          assert (i = p) by lia. subst. injection E as <-. splits; auto. }
      apply HP. }
    destruct HS as (gs & Lg & HG). exists g, gs. splits; auto.
    + intros i gi E. apply (HG i gi E).
    + intros k j y Ey. unfold entry in Ey. rewrite G2 in Ey.
      destruct (columns_entry N rt EX q s n m SP W HD HF (latest a ops) Hl k j y Ey) as (ys & Ly & Ty & Hy). exists ys. splits; auto.
      intros i gi E. destruct (HG i gi E) as (Hi & _ & Gi). rewrite Gi. auto.
Qed.
Example C79_columns_case T po : matrix 2 2 T -> let s := qubit T Diag FTrace po (1/10) in
  ready 2 qubit_routines 2 s 2 1 qx_amps qx_ops /\ s_fid s = FTrace /\ shape 2 1 zeros /\
  latest zeros [] = latest qx_amps qx_ops /\ exact_gradients 2 qubit_routines s (latest qx_amps qx_ops) /\ matrix 2 1 (unit_column 2 1).
Proof.
  intros HT s. destruct (ready_case T Diag FTrace po (1/10)) as (H1 & H2 & H3); auto; try discriminate; try lra.
  splits; auto; [split; auto; repeat constructor|apply unit_column_matrix].
Qed.

(** Assumptions of all theorems of this file together (listed one by one in
    ASSUMPTIONS.txt). *)
Definition propsLaws :=
  (@C76_conserved,
   @C76_stationary,
   @C76_carried,
   @C77_backwards,
   @C78_joined,
   @C79_superposition,
   @C79_combined,
   @C79_columns).
Print Assumptions propsLaws.
