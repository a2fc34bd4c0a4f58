(** Properties C69 to C75: the same physics described in another way gives
    the same final operator, fidelity error and gradient.

    See [Spec/Physics.v]: [reports s st a ops U v] says that a new object with
    the settings [s], initialised with the amplitudes [a] and taken through
    the calls [ops], then reports the final operator [U] and the error [v];
    [latest a ops] are the amplitudes last given to it.  The two objects that
    are compared may have different histories of calls. *)
From Coq Require Import Reals Lra Permutation.
From Coquelicot Require Import Coquelicot.
From RecordUpdate Require Import RecordUpdate.
From Verif.Model Require Import Base Dyn.
From Verif.Lib Require Import Lists Csum Mat MExp MCalc MDiag.
From Verif.Spec Require Import Evolution History MatAlg Qubit Physics.
From Verif.Proofs Require Import DynInv DynRun DynHist DynHistory DynProps DynMore MatFacts MatGrad MatProps QubitFacts
  PhysFacts PhysRotate PhysCut PhysCutGrad PhysShift.
From Verif.Props Require Import PropsMatrix.
Local Open Scope nat_scope.
Set Bullet Behavior "Strict Subproofs".

(** ** What one object reports *)
Section One.
Context (N : nat) (rt : routines) (EX : exact_routines N rt) (q : nat).
Notation A := (MatAlg N rt).
Lemma report (s : settings A) n m st a ops : ready N rt q s n m a ops ->
  reports s st a ops (final_of s (latest a ops)) (fid_err_of s (latest a ops)).
Proof. intros [W SP HD Ha F]. eapply session_reports; eauto. eapply mat_routines; eauto. Qed.
Lemma gradient (s : settings A) n m st a ops : ready N rt q s n m a ops -> exact_gradients N rt s (latest a ops) ->
  exists g, reports_gradient s st a ops g /\ grad_is (dprop (A := A) mdexp s) s (latest a ops) g /\ shape n m g.
Proof.
  intros [W SP HD Ha F] [HA HE]. pose proof (latest_shape s n m a ops Ha F) as Hl.
  destruct (session_reports_gradient (A := A) mdexp s n m st a ops W (mat_routines N rt EX q s n m SP HD) Ha F HA
    (mat_grad_routines N rt EX q s n m SP HD (latest a ops) HA HE)) as (g & R & G). exists g. splits; auto. eapply grad_shape; eauto.
Qed.
Lemma shape_latest (s : settings A) n m a ops : ready N rt q s n m a ops -> shape n m (latest a ops).
Proof. intros [W SP HD Ha F]. eapply latest_shape; eauto. Qed.
(** Equal operators and equal entries. *)
Lemma equal_reports (s s' : settings A) n m n' m' st st' a a' ops ops' :
  ready N rt q s n m a ops -> ready N rt q s' n' m' a' ops' -> same_rest s s' ->
  final_of s' (latest a' ops') = final_of s (latest a ops) ->
  exists U v, reports s st a ops U v /\ reports s' st' a' ops' U v.
Proof.
  intros H H' SR E. exists (final_of s (latest a ops)), (fid_err_of s (latest a ops)). split; [eapply report; eauto|].
  rewrite <- E. rewrite <- (err_same s s' (latest a ops) (latest a' ops') SR E). eapply report; eauto.
Qed.
Lemma equal_gradients (s s' : settings A) n m m' st st' a a' ops ops' :
  ready N rt q s n m a ops -> ready N rt q s' n m' a' ops' ->
  exact_gradients N rt s (latest a ops) -> exact_gradients N rt s' (latest a' ops') ->
  (forall k j, grad_entry_of (dprop (A := A) mdexp s') s' (latest a' ops') k j = grad_entry_of (dprop (A := A) mdexp s) s (latest a ops) k j) ->
  exists g, reports_gradient s st a ops g /\ reports_gradient s' st' a' ops' g.
Proof.
  intros H H' X X' E. destruct (gradient s n m st a ops H X) as (g & R & G & S). destruct (gradient s' n m' st' a' ops' H' X') as (g' & R' & G' & S').
  exists g. split; auto. rewrite <- (grad_same _ _ s s' _ _ g g' G G'); auto.
  destruct (shape_latest _ _ _ _ _ H) as [L _]. destruct (shape_latest _ _ _ _ _ H') as [L' _]. congruence.
Qed.
End One.

(** The concrete case of [Props/PropsMatrix.v], and one in which the last
    amplitudes are not those the object began with. *)
Example ready_case T p f po prec : p <> Approx -> matrix 2 2 T -> (0 < prec <= 1)%R ->
  ready 2 qubit_routines 2 (qubit T p f po prec) 2 1 qx_amps qx_ops /\
  latest qx_amps qx_ops = zeros /\
  exact_gradients 2 qubit_routines (qubit T p f po prec) (latest qx_amps qx_ops).
Proof.
  intros Hp HT Hr. destruct (qx_hyps T p f po prec Hp HT Hr) as (_ & W & SP & HD & _ & Ha & F & E & X).
  splits; auto; [constructor; auto|split; auto].
Qed.

(** ** C69: the same problem, given or computed in another way *)
Theorem C69_same_problem {A : Alg} (s s' : settings A) n m st st' a a' ops ops' :
  well_posed s n m -> routines_ok s n m -> shape n m a -> Forall (call_ok s n m) ops ->
  well_posed s' n m -> routines_ok s' n m -> shape n m a' -> Forall (call_ok s' n m) ops' ->
  same_problem s s' -> latest a' ops' = latest a ops ->
  exists U v, reports s st a ops U v /\ reports s' st' a' ops' U v.
Proof.
  intros W RO Ha F W' RO' Ha' F' SM L. exists (final_of s (latest a ops)), (fid_err_of s (latest a ops)).
  split; [eapply session_reports; eauto|]. pose proof (same_is_rest s s' SM) as SR.
  pose proof (final_same s s' (latest a ops) (latest a' ops') (sr_initial _ _ SR)) as E.
  rewrite <- (err_same s s' (latest a ops) (latest a' ops') SR).
  - rewrite <- E; [eapply session_reports; eauto|]. rewrite L. apply same_props; auto.
  - apply E. rewrite L. apply same_props; auto.
Qed.
Theorem C69_same_gradient N rt q (s s' : settings (MatAlg N rt)) n m st st' a a' ops ops' :
  exact_routines N rt -> ready N rt q s n m a ops -> ready N rt q s' n m a' ops' ->
  exact_gradients N rt s (latest a ops) -> exact_gradients N rt s' (latest a' ops') ->
  same_problem s s' -> latest a' ops' = latest a ops ->
  exists g, reports_gradient s st a ops g /\ reports_gradient s' st' a' ops' g.
Proof.
  intros EX H H' X X' SM L. eapply equal_gradients; eauto. intros k j. rewrite L. apply entry_same; auto.
  - apply same_is_rest; auto.
  - apply same_props; auto.
  - apply same_dslot; auto.
Qed.
(** One object with the diagonalising computer and a Hamiltonian, the other
    with the Frechet computer and the operators listed for every timeslot. *)
Definition listed (s : settings QAlg) : settings QAlg :=
  s <| s_drift := Some (DList [(sigma_z : Op QAlg); (sigma_z : Op QAlg)]) |>
    <| s_ctrls := Some (CArr [[(sigma_x : Op QAlg)]; [(sigma_x : Op QAlg)]]) |> <| s_prop := Frechet |>.
Example C69_case T f po : matrix 2 2 T -> let s := qubit T Diag f po (1/10) in
  ready 2 qubit_routines 2 s 2 1 qx_amps qx_ops /\ ready 2 qubit_routines 2 (listed s) 2 1 zeros [] /\
  exact_gradients 2 qubit_routines s (latest qx_amps qx_ops) /\ exact_gradients 2 qubit_routines (listed s) (latest zeros []) /\
  same_problem s (listed s) /\ latest zeros [] = latest qx_amps qx_ops /\ s_prop (listed s) <> s_prop s.
Proof.
  intros HT s. destruct (ready_case T Diag f po (1/10)) as (H1 & H2 & H3); auto; try discriminate; try lra.
  pose proof sigma_x_herm as [Mx _]. pose proof sigma_z_herm as [Mz _]. splits; auto; try discriminate.
  - constructor.
    + constructor; auto; [eexists; split; [reflexivity|reflexivity]|exists (CArr [[(sigma_x : Op QAlg)]; [(sigma_x : Op QAlg)]]); split; [reflexivity|cbn; auto]].
    + destruct (rd_sized _ _ _ _ _ _ _ _ H1). constructor; auto. split; intros ? [= <-]; repeat constructor; (apply Mx || apply Mz).
    + intros E; discriminate.
    + split; auto; repeat constructor.
    + constructor.
  - split; [discriminate|intros E; discriminate].
  - constructor; auto.
Qed.

(** ** C70: the phase given separately, or multiplied into the operators *)
(** E.g. a Hamiltonian and the phase -i given to DynamicsUnitary, or the
    generator -i H given to DynamicsGenMat. *)
Theorem C70_phase_folded N rt q (s : settings (MatAlg N rt)) n m k p st st' a a' ops ops' :
  exact_routines N rt -> ready N rt q s n m a ops -> p <> Diag ->
  k = s_class s \/ s_fid s = FTrace \/ (exact_inv N rt /\ isometry N q (s_target s)) ->
  let s' := phase_folded k p s in
  shape n m a' -> Forall (call_ok s' n m) ops' -> latest a' ops' = latest a ops ->
  (exists U v, reports s st a ops U v /\ reports s' st' a' ops' U v) /\
  (exact_gradients N rt s (latest a ops) -> p <> Approx ->
   exists g, reports_gradient s st a ops g /\ reports_gradient s' st' a' ops' g).
Proof.
  intros EX H Hp HC s' Ha' F' L. pose proof H as [W SP HD Ha F].
  assert (H' : ready N rt q s' n m a' ops').
  { constructor; auto; [apply fold_well; auto|eapply fold_sized; eauto|apply fold_suits; auto]. }
  pose proof (fold_rest N rt q s n m k p SP W HC) as SR. pose proof (fold_props N rt q s n m k p SP W (latest a ops)) as PR. split.
  - eapply equal_reports; eauto. rewrite L. apply final_same; auto.
  - intros X HA. eapply equal_gradients; eauto.
    + split; [exact HA|]. intros E. destruct (Hp E).
    + intros i j. rewrite L. apply entry_same; auto. eapply fold_dslot; eauto.
Qed.
Example C70_case T po : matrix 2 2 T -> let s := qubit T Diag FTrace po (1/10) in
  ready 2 qubit_routines 2 s 2 1 qx_amps qx_ops /\ exact_gradients 2 qubit_routines s (latest qx_amps qx_ops) /\
  s_fid s = FTrace /\ shape 2 1 zeros /\ latest zeros [] = latest qx_amps qx_ops /\
  eff_drift (phase_folded GenMat AugMat s) = Some (DConst (mscal (- Ci)%C sigma_z : Op QAlg)) /\
  s_phase (phase_folded GenMat AugMat s) = None.
Proof.
  intros HT s. destruct (ready_case T Diag FTrace po (1/10)) as (H1 & H2 & H3); auto; try discriminate; try lra.
  splits; auto. split; auto; repeat constructor.
Qed.

(** ** C71: other units of time *)
Theorem C71_time_units N rt q (s : settings (MatAlg N rt)) n m x st st' a a' ops ops' :
  exact_routines N rt -> ready N rt q s n m a ops -> x <> 0%R ->
  let s' := rescaled x s in
  shape n m a' -> Forall (call_ok s' n m) ops' -> latest a' ops' = latest a ops ->
  (exists U v, reports s st a ops U v /\ reports s' st' a' ops' U v) /\
  (exact_gradients N rt s (latest a ops) -> exact_gradients N rt s' (latest a' ops') ->
   exists g, reports_gradient s st a ops g /\ reports_gradient s' st' a' ops' g).
Proof.
  intros EX H Hx s' Ha' F' L. pose proof H as [W SP HD Ha F].
  assert (H' : ready N rt q s' n m a' ops').
  { constructor; auto; [apply unit_well; auto|apply unit_sized; auto|eapply unit_suits; eauto]. }
  pose proof (unit_rest N rt s x) as SR. pose proof (unit_props N rt q s x SP Hx (latest a ops)) as PR. split.
  - eapply equal_reports; eauto. rewrite L. apply final_same; auto.
  - intros X X'. eapply equal_gradients; eauto. intros i j. rewrite L. apply entry_same; auto. eapply unit_dslot; eauto.
Qed.
Example C71_case T f po : matrix 2 2 T -> let s := qubit T AugMat f po (1/10) in
  ready 2 qubit_routines 2 s 2 1 qx_amps qx_ops /\ exact_gradients 2 qubit_routines s (latest qx_amps qx_ops) /\
  exact_gradients 2 qubit_routines (rescaled 2 s) (latest zeros []) /\
  shape 2 1 zeros /\ latest zeros [] = latest qx_amps qx_ops /\
  s_tau (rescaled 2 s) = [(2 * (1/2))%R; (2 * (1/2))%R] /\ eff_drift (rescaled 2 s) = Some (DConst (mscal (RtoC (/ 2)) sigma_z : Op QAlg)).
Proof.
  intros HT s. destruct (ready_case T AugMat f po (1/10)) as (H1 & H2 & H3); auto; try discriminate; try lra.
  splits; auto; [split; [discriminate|intros E; discriminate]|split; auto; repeat constructor].
Qed.

(** ** C72: timeslots cut into pieces *)
(** [parts] lists, for every timeslot, the durations of the pieces it is cut
    into; each piece gets the amplitudes of its timeslot. *)
Theorem C72_cut_slots N rt q (s : settings (MatAlg N rt)) n m parts st st' a a' ops ops' :
  exact_routines N rt -> ready N rt q s n m a ops -> map total parts = s_tau s -> concat parts <> [] ->
  let s' := cut parts s in let n' := length (concat parts) in
  shape n' m a' -> Forall (call_ok s' n' m) ops' -> latest a' ops' = repeated parts (latest a ops) ->
  exists U v, reports s st a ops U v /\ reports s' st' a' ops' U v.
Proof.
  intros EX H HP HN s' n' Ha' F' L. pose proof H as [W SP HD Ha F].
  assert (H' : ready N rt q s' n' m a' ops').
  { constructor; auto; [eapply cut_well; eauto|apply cut_sized; auto|apply cut_suits; auto]. }
  eapply equal_reports; eauto; [apply cut_rest|]. rewrite L. eapply cut_final; eauto. eapply latest_shape; eauto.
Qed.
(** The derivatives by the amplitudes of the pieces of a timeslot add up to
    the derivative by the amplitude of the timeslot. *)
Theorem C72_cut_gradient N rt q (s : settings (MatAlg N rt)) n m parts st st' a a' ops ops' :
  exact_routines N rt -> ready N rt q s n m a ops -> map total parts = s_tau s -> concat parts <> [] ->
  let s' := cut parts s in let n' := length (concat parts) in
  shape n' m a' -> Forall (call_ok s' n' m) ops' -> latest a' ops' = repeated parts (latest a ops) ->
  exact_gradients N rt s (latest a ops) -> exact_gradients N rt s' (latest a' ops') ->
  exists g g', reports_gradient s st a ops g /\ reports_gradient s' st' a' ops' g' /\
    forall k j p y, nth_error parts k = Some p -> entry g k j = Some y ->
      let first := length (concat (firstn k parts)) in
      exists ys, length ys = length p /\ total ys = y /\
        forall r, r < length p -> entry g' (first + r) j = nth_error ys r.
Proof.
  intros EX H HP HN s' n' Ha' F' L X X'. pose proof H as [W SP HD Ha F].
  assert (H' : ready N rt q s' n' m a' ops').
  { constructor; auto; [eapply cut_well; eauto|apply cut_sized; auto|apply cut_suits; auto]. }
  destruct (gradient N rt EX q s n m st a ops H X) as (g & R & [G1 G2] & S).
  destruct (gradient N rt EX q s' n' m st' a' ops' H' X') as (g' & R' & [G1' G2'] & S'). exists g, g'. splits; auto.
  intros k j p y Ep Ey first. unfold entry in Ey. rewrite G2 in Ey.
  destruct (cut_entry N rt EX q s n m parts SP W HD HP (latest a ops) k p j y) as (ys & Q1 & Q2 & Q3); auto.
  { eapply latest_shape; eauto. }
  exists ys. splits; auto. intros r Hr. unfold entry. rewrite G2', L. apply Q1; auto.
Qed.
(** The first timeslot in two pieces. *)
Definition qx_parts : list (list R) := [[(1/3)%R; (1/6)%R]; [(1/2)%R]].
Example C72_case T f po : matrix 2 2 T -> let s := qubit T Frechet f po (1/10) in
  let a' := [[0%R]; [0%R]; [0%R]] in
  ready 2 qubit_routines 2 s 2 1 qx_amps qx_ops /\ exact_gradients 2 qubit_routines s (latest qx_amps qx_ops) /\
  map total qx_parts = s_tau s /\ concat qx_parts <> [] /\ shape 3 1 a' /\
  latest a' [] = repeated qx_parts (latest qx_amps qx_ops) /\ exact_gradients 2 qubit_routines (cut qx_parts s) (latest a' []) /\
  nth_error qx_parts 0 = Some [(1/3)%R; (1/6)%R].
Proof.
  intros HT s a'. destruct (ready_case T Frechet f po (1/10)) as (H1 & H2 & H3); auto; try discriminate; try lra.
  splits; auto; try discriminate.
  - cbn. repeat (f_equal; try lra).
  - split; auto; repeat constructor.
  - split; [discriminate|intros E; discriminate].
Qed.

(** ** C73: the list of controls *)
Lemma rows_eq n m (g g' : amps) : shape n m g -> shape n m g' -> (forall k j, k < n -> j < m -> entry g' k j = entry g k j) -> g' = g.
Proof.
  intros [L F] [L' F'] H. apply list_ext; [congruence|]. intros k Hk.
  destruct (nth_ex g' k Hk) as (r1 & E1). destruct (nth_ex g k) as (r2 & E2); [congruence|]. rewrite E1, E2. f_equal.
  rewrite Forall_forall in F, F'. pose proof (F _ (nth_error_In _ _ E2)) as L2. pose proof (F' _ (nth_error_In _ _ E1)) as L1.
  apply list_ext; [congruence|]. intros j Hj. specialize (H k j). unfold entry in H. rewrite E1, E2 in H. apply H; lia.
Qed.
(** In another order, with the amplitudes in the same order. *)
Theorem C73_reordered N rt q (s : settings (MatAlg N rt)) n m p st st' a a' ops ops' :
  exact_routines N rt -> ready N rt q s n m a ops -> Permutation p (seq 0 m) ->
  let s' := reordered p s in
  shape n m a' -> Forall (call_ok s' n m) ops' -> latest a' ops' = map (pick p) (latest a ops) ->
  (exists U v, reports s st a ops U v /\ reports s' st' a' ops' U v) /\
  (exact_gradients N rt s (latest a ops) -> exact_gradients N rt s' (latest a' ops') ->
   exists g, reports_gradient s st a ops g /\ reports_gradient s' st' a' ops' (map (pick p) g)).
Proof.
  intros EX H Hp s' Ha' F' L. pose proof H as [W SP HD Ha F]. pose proof (latest_shape s n m a ops Ha F) as Hl.
  assert (Fl : forall l : list mat, length l = m -> length (pick p l) = m) by (intros l Q; rewrite pick_length; congruence).
  assert (Fa : forall (P : mat -> Prop) l, P = matrix N N \/ P = (fun x => hermitian x) -> s_prop s = Diag \/ P = matrix N N ->
    length l = m -> Forall P l -> Forall P (pick p l)).
  { intros P l _ _ Q G. rewrite Forall_forall in *. intros x Hx. apply G. eapply Permutation_in; [|exact Hx]. apply pick_perm. congruence. }
  assert (FH : forall d row cs, matrix N N d -> Forall (matrix N N) cs -> length row = m -> length cs = m ->
    lincomb (A := MatAlg N rt) d (pick p row) (pick p cs) = lincomb (A := MatAlg N rt) d row cs).
  { intros. eapply reorder_lincomb; eauto. }
  assert (H' : ready N rt q s' n m a' ops').
  { constructor; auto; [eapply (rows_well N rt s n m W m); auto; apply W|eapply rows_sized; eauto|eapply rows_suits; eauto]. }
  pose proof (rows_rest N rt s (pick p)) as SR.
  pose proof (rows_props N rt q s n m SP W m (pick p) (pick p) Fl Fa FH (latest a ops) Hl) as PR. split.
  - eapply equal_reports; eauto. rewrite L. apply final_same; auto.
  - intros X X'. destruct (gradient N rt EX q s n m st a ops H X) as (g & R & [G1 G2] & S).
    destruct (gradient N rt EX q s' n m st' a' ops' H' X') as (g' & R' & [G1' G2'] & S'). exists g. split; auto.
    replace (map (pick p) g) with g'; auto. pose proof (perm_bound p m Hp) as PB.
    apply (rows_eq n m); auto.
    { destruct S as [S1 S2]. split; [rewrite map_length; auto|]. apply Forall_forall. intros r Hr. apply in_map_iff in Hr. destruct Hr as (r0 & <- & Hr).
      rewrite Forall_forall in S2. rewrite pick_length; rewrite (S2 _ Hr); auto. }
    intros k j Hk Hj. unfold entry at 1. rewrite G2', L.
    assert (Ej : exists i, nth_error p j = Some i).
    { apply nth_ex. rewrite (Permutation_length Hp), seq_length. auto. }
    destruct Ej as (i & Ei).
    rewrite (entry_same (dprop (A := MatAlg N rt) mdexp s) _ s s' (latest a ops) _ k k i j SR PR eq_refl).
    + rewrite <- G2. unfold entry. rewrite nth_error_map. destruct S as [S1 S2].
      destruct (nth_ex g k) as (r & Er); [congruence|]. rewrite Er. cbn [option_map]. rewrite Forall_forall in S2.
      rewrite pick_nth by (rewrite (S2 _ (nth_error_In _ _ Er)); auto). rewrite Ei. auto.
    + eapply rows_dslot; eauto. intros l Q. rewrite pick_nth by (rewrite Q; auto). rewrite Ei. auto.
Qed.
Lemma nth_error_firstn_lt {X} (l : list X) m j : j < m -> nth_error (firstn m l) j = nth_error l j.
Proof. revert l j. induction m; intros [|x l] [|j] H; cbn; auto; try lia. apply IHm. lia. Qed.
(** With a further control that is not used. *)
Theorem C73_unused N rt q (s : settings (MatAlg N rt)) n m c st st' a a' ops ops' :
  exact_routines N rt -> ready N rt q s n m a ops -> matrix N N c -> (s_prop s = Diag -> hermitian c) ->
  let s' := extended (c : Op (MatAlg N rt)) s in
  shape n (S m) a' -> Forall (call_ok s' n (S m)) ops' -> latest a' ops' = map (fun row => row ++ [0%R]) (latest a ops) ->
  (exists U v, reports s st a ops U v /\ reports s' st' a' ops' U v) /\
  (exact_gradients N rt s (latest a ops) -> exact_gradients N rt s' (latest a' ops') ->
   exists g g', reports_gradient s st a ops g /\ reports_gradient s' st' a' ops' g' /\
     shape n (S m) g' /\ map (firstn m) g' = g).
Proof.
  intros EX H Hc Hh s' Ha' F' L. pose proof H as [W SP HD Ha F]. pose proof (latest_shape s n m a ops Ha F) as Hl.
  set (f := fun l : list mat => l ++ [c]).
  assert (Fl : forall l : list mat, length l = m -> length (f l) = S m) by (intros l Q; unfold f; rewrite app_length; cbn; lia).
  assert (Fa : forall (P : mat -> Prop) l, P = matrix N N \/ P = (fun x => hermitian x) -> s_prop s = Diag \/ P = matrix N N ->
    length l = m -> Forall P l -> Forall P (f l)).
  { intros P l Q1 Q2 _ G. apply Forall_app. split; auto. constructor; auto. destruct Q1 as [->| ->]; auto.
    destruct Q2 as [Q|Q]; [auto|]. change ((fun x => hermitian x) c). rewrite Q. auto. }
  assert (FH : forall d row cs, matrix N N d -> Forall (matrix N N) cs -> length row = m -> length cs = m ->
    lincomb (A := MatAlg N rt) d (row ++ [0%R]) (f cs) = lincomb (A := MatAlg N rt) d row cs).
  { intros. eapply extend_lincomb; eauto. }
  assert (H' : ready N rt q s' n (S m) a' ops').
  { constructor; auto; [eapply (rows_well N rt s n m W (S m) f); auto; lia|eapply (rows_sized N rt q s n m SP W f); eauto|eapply (rows_suits N rt s n m W HD f); eauto]. }
  pose proof (rows_rest N rt s f) as SR.
  pose proof (rows_props N rt q s n m SP W (S m) f (fun row => row ++ [0%R]) Fl Fa FH (latest a ops) Hl) as PR. split.
  - eapply equal_reports; eauto. rewrite L. apply final_same; auto.
  - intros X X'. destruct (gradient N rt EX q s n m st a ops H X) as (g & R & [G1 G2] & S).
    destruct (gradient N rt EX q s' n _ st' a' ops' H' X') as (g' & R' & [G1' G2'] & S'). exists g, g'. splits; auto.
    destruct S' as [S1 S2]. rewrite Forall_forall in S2.
    apply (rows_eq n m); auto.
    { split; [rewrite map_length; auto|]. apply Forall_forall. intros r Hr. apply in_map_iff in Hr. destruct Hr as (r0 & <- & Hr).
      rewrite firstn_length, (S2 _ Hr). lia. }
    intros k j Hk Hj. unfold entry. rewrite nth_error_map. destruct (nth_ex g' k) as (r & Er); [congruence|].
    specialize (G2' k j). rewrite Er in G2' |- *. cbn [option_map]. rewrite (nth_error_firstn_lt r m j) by auto. rewrite G2', G2, L.
    apply entry_same; auto. eapply (rows_dslot N rt q s n m SP W); eauto. intros l Q. unfold f. apply nth_error_app1. lia.
Qed.
(** The qubit with a second control, sigma_z. *)
Definition qubit2 T f po : settings QAlg := extended (sigma_z : Op QAlg) (qubit T AugMat f po (1/10)).
Example C73_case T f po : matrix 2 2 T -> let s := qubit T AugMat f po (1/10) in
  let a' := [[0%R; 0%R]; [0%R; 0%R]] in
  ready 2 qubit_routines 2 s 2 1 qx_amps qx_ops /\ exact_gradients 2 qubit_routines s (latest qx_amps qx_ops) /\
  matrix 2 2 sigma_z /\ shape 2 2 a' /\ latest a' [] = map (fun row => row ++ [0%R]) (latest qx_amps qx_ops) /\
  exact_gradients 2 qubit_routines (qubit2 T f po) (latest a' []) /\
  ready 2 qubit_routines 2 (qubit2 T f po) 2 2 [[1%R; 2%R]; [3%R; 4%R]] [GetFidErr] /\
  exact_gradients 2 qubit_routines (qubit2 T f po) (latest [[1%R; 2%R]; [3%R; 4%R]] [GetFidErr]) /\
  Permutation [1; 0] (seq 0 2) /\
  map (pick [1; 0]) (latest [[1%R; 2%R]; [3%R; 4%R]] [GetFidErr]) = [[2%R; 1%R]; [4%R; 3%R]] /\
  exact_gradients 2 qubit_routines (reordered [1; 0] (qubit2 T f po)) [[2%R; 1%R]; [4%R; 3%R]].
Proof.
  intros HT s a'. destruct (ready_case T AugMat f po (1/10)) as (H1 & H2 & H3); auto; try discriminate; try lra.
  pose proof sigma_x_herm as [Mx _]. pose proof sigma_z_herm as [Mz _].
  assert (XG : forall s0 : settings QAlg, s_prop s0 = AugMat -> forall b, exact_gradients 2 qubit_routines s0 b).
  { intros s0 E b. split; [congruence|intros E'; congruence]. }
  splits; auto.
  - split; auto; repeat constructor.
  - constructor.
    + constructor; auto; [eexists; split; reflexivity|eexists; split; reflexivity].
    + destruct (rd_sized _ _ _ _ _ _ _ _ H1). constructor; auto. split; intros ? [= <-]; repeat constructor; (apply Mx || apply Mz).
    + intros E; discriminate.
    + split; auto; repeat constructor.
    + repeat constructor.
  - apply perm_swap.
Qed.

(** ** C74: another basis *)
Theorem C74_basis N rt q (s : settings (MatAlg N rt)) n m V W st st' a a' ops ops' :
  exact_routines N rt -> ready N rt q s n m a ops -> unitary N V -> unitary q W ->
  s_fid s = FTrace \/ s_class s = Unitary \/ q <> N \/ (exact_inv N rt /\ isometry N q (s_target s)) ->
  let s' := rotated N rt V W s in
  shape n m a' -> Forall (call_ok s' n m) ops' -> latest a' ops' = latest a ops ->
  (exists U v, reports s st a ops U v /\ reports s' st' a' ops' (mmul (mmul V U) W : Op (MatAlg N rt)) v) /\
  (exact_gradients N rt s (latest a ops) -> exact_gradients N rt s' (latest a' ops') ->
   exists g, reports_gradient s st a ops g /\ reports_gradient s' st' a' ops' g).
Proof.
  intros EX H HV HW HC s' Ha' F' L. pose proof H as [WP SP HD Ha F]. pose proof (latest_shape s n m a ops Ha F) as Hl.
  assert (H' : ready N rt q s' n m a' ops').
  { constructor; auto; [apply rot_well; auto|apply rot_sized; auto|eapply rot_suits; eauto]. }
  split.
  - exists (final_of s (latest a ops)), (fid_err_of s (latest a ops)). split; [eapply report; eauto|].
    pose proof (report N rt EX q s' n m st' a' ops' H') as R. rewrite L in R. unfold s' in R.
    rewrite (rot_err N rt EX q s n m V W HV HW SP WP HD (latest a ops) Hl HC) in R.
    rewrite (rot_final N rt EX q s n m V W HV HW SP WP HD (latest a ops) Hl) in R. exact R.
  - intros X X'. eapply equal_gradients; eauto. intros k j. rewrite L. eapply rot_entry; eauto.
Qed.
Lemma sigma_x_unitary : unitary 2 sigma_x.
Proof.
  assert (E : mmul sigma_x sigma_x = mid 2).
  { unfold sigma_x. rewrite mat2_mul, mat2_id. apply mat2_inj; ring. }
  destruct sigma_x_herm as [[S P] Hh]. unfold hermitian in Hh. unfold unitary. rewrite Hh. auto.
Qed.
Example C74_case T f po : matrix 2 2 T -> let s := qubit T Frechet f po (1/10) in
  ready 2 qubit_routines 2 s 2 1 qx_amps qx_ops /\ exact_gradients 2 qubit_routines s (latest qx_amps qx_ops) /\
  unitary 2 sigma_x /\ s_class s = Unitary /\ shape 2 1 zeros /\ latest zeros [] = latest qx_amps qx_ops /\
  exact_gradients 2 qubit_routines (rotated 2 qubit_routines sigma_x (mid 2) s) (latest zeros []) /\
  mmul (mmul sigma_x sigma_z) (mdag sigma_x) = mat2 (RtoC (-1)) (RtoC 0) (RtoC 0) (RtoC 1).
Proof.
  intros HT s. destruct (ready_case T Frechet f po (1/10)) as (H1 & H2 & H3); auto; try discriminate; try lra.
  splits; auto.
  - apply sigma_x_unitary.
  - split; auto; repeat constructor.
  - split; [discriminate|intros E; discriminate].
  - unfold sigma_x, sigma_z. rewrite mat2_dag, !mat2_mul. apply mat2_inj; apply Cpair_eq; cbn; ring.
Qed.

(** ** C75: the zero of energy *)
Theorem C75_energy_shift N rt q (s s' : settings (MatAlg N rt)) n m st st' a a' ops ops' :
  exact_routines N rt -> ready N rt q s n m a ops -> ready N rt q s' n m a' ops' ->
  s_phase s = Some (PhNum (- Ci)%C : phase (MatAlg N rt)) -> s_fid s = FUnit -> s_phopt s = PSU ->
  shifted_problem N rt s s' -> latest a' ops' = latest a ops ->
  (exists U z v, reports s st a ops U v /\ Cmod z = 1%R /\ reports s' st' a' ops' (mscal z U : Op (MatAlg N rt)) v) /\
  (exact_gradients N rt s (latest a ops) -> exact_gradients N rt s' (latest a' ops') ->
   (* away from overlap zero, where PSU has no derivative *)
   (forall d d1 v, session s st a ops = Ok d -> get_fidelity d = Ok (d1, v) -> v <> 0%R) ->
   exists g, reports_gradient s st a ops g /\ reports_gradient s' st' a' ops' g).
Proof.
  intros EX H H' HH HF HP SH L. pose proof H as [WP SP HD Ha F]. pose proof (latest_shape s n m a ops Ha F) as Hl.
  split.
  - destruct (shift_final N rt EX q s s' n m SP WP HD HH SH (latest a ops) Hl) as (zs & es & _ & _ & _ & Hz & _ & _ & E).
    exists (final_of s (latest a ops)), (cprod zs), (fid_err_of s (latest a ops)). splits; auto; [eapply report; eauto|].
    pose proof (report N rt EX q s' n m st' a' ops' H') as R. rewrite L, E in R.
    rewrite (shift_err N rt EX q s s' n m SP WP HD HH SH (latest a ops) Hl HF HP) in R. exact R.
  - intros X X' V. eapply equal_gradients; eauto. intros k j. rewrite L. eapply shift_entry; eauto.
    destruct (session_values s n m WP (mat_routines N rt EX q s n m SP HD) st a ops Ha F) as (d & _ & d2 & E & _ & E2). eauto.
Qed.
(** sigma_z + 3 and sigma_x - 2 in place of sigma_z and sigma_x. *)
Definition lifted : settings QAlg := qubit (mid 2) Frechet FUnit PSU (1/10)
  <| s_drift := Some (DConst (madd sigma_z (mscal (RtoC 3) (mid 2)) : Op QAlg)) |>
  <| s_ctrls := Some (CList [(madd sigma_x (mscal (RtoC (-2)) (mid 2)) : Op QAlg)]) |>.
Example C75_case st : let s := qubit (mid 2) Frechet FUnit PSU (1/10) in
  ready 2 qubit_routines 2 s 2 1 qx_amps qx_ops /\ ready 2 qubit_routines 2 lifted 2 1 zeros [] /\
  shifted_problem 2 qubit_routines s lifted /\ latest zeros [] = latest qx_amps qx_ops /\
  exact_gradients 2 qubit_routines s (latest qx_amps qx_ops) /\ exact_gradients 2 qubit_routines lifted (latest zeros []) /\
  (forall d d1 v, session s st qx_amps qx_ops = Ok d -> get_fidelity d = Ok (d1, v) -> v <> 0%R).
Proof.
  assert (M2 : matrix 2 2 (mid 2)) by (split; auto with mat).
  intros s. destruct (ready_case (mid 2) Frechet FUnit PSU (1/10)) as (H1 & H2 & H3); auto; try discriminate; try lra.
  pose proof sigma_x_herm as [[Sx Px] _]. pose proof sigma_z_herm as [[Sz Pz] _]. pose proof H1 as [W SP HD Ha F].
  splits; auto.
  - constructor.
    + constructor; auto; [eexists; split; reflexivity|eexists; split; reflexivity].
    + destruct SP. constructor; auto. split; intros ? [= <-]; repeat constructor; auto with mat.
    + intros E; discriminate.
    + split; auto; repeat constructor.
    + repeat constructor.
  - constructor; auto; do 2 eexists; (split; [reflexivity|split; [reflexivity|]]); repeat constructor; eexists; reflexivity.
  - split; [discriminate|intros E; discriminate].
  - intros d d1 v E E1.
    destruct (session_values s 2 1 W (mat_routines _ _ qubit_exact 2 s 2 1 SP HD) st qx_amps qx_ops Ha F) as (d' & _ & d2 & E' & _ & E2).
    specialize (E2 eq_refl). rewrite E in E'. injection E' as <-. rewrite E1 in E2. injection E2 as _ ->. change (latest qx_amps qx_ops) with zeros.
    unfold s. rewrite zeros_fidelity. pose proof cos1. lra.
Qed.

(** Assumptions of all theorems of this file together (listed one by one in
    ASSUMPTIONS.txt). *)
Definition propsPhysics :=
  (@C69_same_problem,
   @C69_same_gradient,
   @C70_phase_folded,
   @C71_time_units,
   @C72_cut_slots,
   @C72_cut_gradient,
   @C73_reordered,
   @C73_unused,
   @C74_basis,
   @C75_energy_shift).
Print Assumptions propsPhysics.
