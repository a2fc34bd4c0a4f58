(** Facts for [Props/PropsCompare.v]. *)
From Coq Require Import Reals Lra.
From Coquelicot Require Import Coquelicot.
From RecordUpdate Require Import RecordUpdate.
From Verif.Model Require Import Base Dyn.
From Verif.Lib Require Import Lists Csum Mat MExp MCalc MDiag MComm.
From Verif.Spec Require Import Evolution History MatAlg Physics Laws Robust Compare.
From Verif.Proofs Require Import DynInv DynRun DynHist DynHistory DynProps DynMore MatFacts MatGrad MatProps PhysFacts LawFacts RobustFacts.
Local Open Scope nat_scope.
Set Bullet Behavior "Strict Subproofs".

(** ** Figures of merit *)
Section Figures.
Context (N : nat) (rt : routines) (EX : exact_routines N rt).
Notation A := (MatAlg N rt).

Lemma overlap_limit q T U : isometry N q T -> isometry N q U -> (Cmod (mtr (mmul (mdag T) U)) <= INR q)%R.
Proof. apply overlap_mod. Qed.
Lemma ratio_le x q : 0 < q -> (x <= INR q)%R -> (x / INR q <= 1)%R.
Proof. intros Hq H. apply lt_0_INR in Hq. apply (Rmult_le_reg_r (INR q)); auto. unfold Rdiv. rewrite Rmult_assoc, Rinv_l; lra. Qed.
Lemma re_le_mod z : (Re z <= Cmod z)%R.
Proof. eapply Rle_trans; [apply Rle_abs|]. apply Re_le_Cmod. Qed.

Lemma err_figure q (s : settings A) n m a : sized_problem N rt q s -> well_posed s n m -> diag_suits N rt s ->
  hamiltonian_problem N rt s -> gate_problem N rt q s -> shape n m a ->
  fid_err_of s a = figure N q s (s_target s) (final_of s a).
Proof.
  intros SP W HD HH (HI & HT & Hq & HC) Ha. pose proof (final_iso N rt EX q s n m SP W HD a Ha HH HI) as FI.
  pose proof (overlap_limit q _ _ HT FI) as L. unfold fid_err_of, figure. destruct (s_fid s).
  - case_eq (s_phopt s); intros HP.
    + rewrite (su_is N rt q s SP HC HT a HP). apply Rabs_pos_eq.
      pose proof (ratio_le _ q Hq (Rle_trans _ _ _ (re_le_mod _) L)). unfold su_error. lra.
    + rewrite (psu_is N rt q s SP HC HT a HP). apply Rabs_pos_eq. pose proof (ratio_le _ q Hq L). unfold psu_error. lra.
  - unfold trace_dist, diff_error. cbn zeta. cbn [osub otr omul odag MatAlg]. rewrite (frob N q); [reflexivity|]. apply msub_sized; apply HT.
Qed.

Lemma final_evolution (s s' : settings A) a : same_evolution s s' -> final_of s' a = final_of s a.
Proof.
  intros [H1 H2 H3 H4 H5 H6 H7 H8].
  set (s2 := s' <| s_fid := s_fid s |> <| s_phopt := s_phopt s |> <| s_scale := Some (trace_scale s) |>).
  assert (SP : same_problem s s2) by (constructor; auto).
  change (final_of s2 a = final_of s a). apply final_same; [auto|]. apply (same_props s s2 SP).
Qed.

Lemma figures_order q T U c : 0 < q -> isometry N q T -> isometry N q U ->
  (0 <= psu_error q T U <= 1)%R /\ (psu_error q T U <= su_error q T U <= 2)%R /\
  diff_error N q c T U = (2 * INR q * c * su_error q T U)%R.
Proof.
  intros Hq HT HU. pose proof (overlap_limit q _ _ HT HU) as L. pose proof (lt_0_INR q Hq) as Pq.
  unfold psu_error, su_error, diff_error. set (w := mtr (mmul (mdag T) U)) in *.
  pose proof (ratio_le _ q Hq L). pose proof (re_le_mod w) as R1. pose proof (Re_le_Cmod w) as R2. pose proof (Cmod_ge_0 w) as R3.
  assert (D : forall x y, (x <= y -> x / INR q <= y / INR q)%R).
  { intros x y Hxy. apply Rmult_le_compat_r; auto. apply Rlt_le, Rinv_0_lt_compat; auto. }
  assert (R4 : (- INR q <= Re w)%R) by (apply Rabs_le_between in R2; lra).
  pose proof (D _ _ R1) as D1. pose proof (D _ _ R3) as D2. pose proof (D _ _ R4) as D3.
  replace (0 / INR q)%R with 0%R in D2 by (unfold Rdiv; ring). replace (- INR q / INR q)%R with (-1)%R in D3 by (field; lra).
  split; [lra|]. split; [lra|].
  assert (E : msub T U = mscal (RtoC (-1)) (msub U (mscal (RtoC 1) T))).
  { destruct HT as [[ST PT] _], HU as [[SU PU] _]. apply (mat_ext N q); auto with mat. intros i j Hi Hj.
    rewrite (mscal_ent N q), !(msub_ent N q), (mscal_ent N q) by auto with mat. apply injective_projections; cbn; ring. }
  assert (Q : sum_squares N q (msub T U) = sum_squares N q (msub U (mscal (RtoC 1) T))).
  { rewrite E. unfold sum_squares. apply rsum_ext. intros i Hi. apply rsum_ext. intros j Hj.
    rewrite (mscal_ent N q), Cmod_mult, Cmod_R, (Rabs_left (-1)) by (auto with mat; try lra; apply msub_sized, HU). ring. }
  rewrite Q, (expand_unit N q T U HT HU) by (rewrite Cmod_1; auto). fold w.
  replace (Re (Cconj (RtoC 1) * w)%C) with (Re w) by (destruct w; cbn; ring). field. lra.
Qed.

(** Turned targets. *)
Lemma towards_overlap q z T U : isometry N q T -> isometry N q U ->
  mtr (mmul (mdag (mscal z T)) U) = (Cconj z * mtr (mmul (mdag T) U))%C.
Proof.
  intros [[ST PT] _] [[SU PU] _]. rewrite (mdag_scal N q), (mmul_scal_l q N q), (mtr_scal q) by eauto with mat. auto.
Qed.
Lemma towards_iso q z T : Cmod z = 1%R -> isometry N q T -> isometry N q (mscal z T).
Proof.
  intros Hz [[ST PT] H]. split; [split; auto with mat|].
  rewrite (mdag_scal N q), (mmul_scal_l q N q), (mmul_scal_r q N q), (mscal_scal q q), H by eauto with mat.
  replace (Cconj z * z)%C with (RtoC 1); [apply (mscal_1 q q); auto with mat|]. symmetry. apply conj_unit; auto.
Qed.
Lemma phase_at_best q T U : 0 < q -> isometry N q T -> isometry N q U ->
  (forall z, Cmod z = 1%R -> (psu_error q T U <= su_error q (mscal z T) U)%R) /\
  exists z, Cmod z = 1%R /\ psu_error q T U = su_error q (mscal z T) U.
Proof.
  intros Hq HT HU. pose proof (lt_0_INR q Hq) as Pq. unfold psu_error, su_error. set (w := mtr (mmul (mdag T) U)). split.
  - intros z Hz. rewrite (towards_overlap q) by auto. fold w. pose proof (re_le_mod (Cconj z * w)%C) as H.
    rewrite Cmod_mult, Cmod_conj, Hz, Rmult_1_l in H.
    assert (Re (Cconj z * w)%C / INR q <= Cmod w / INR q)%R; [|lra]. apply Rmult_le_compat_r; auto. apply Rlt_le, Rinv_0_lt_compat; auto.
  - destruct (Req_dec (Cmod w) 0) as [Z|Z].
    + exists (RtoC 1). split; [apply Cmod_1|]. rewrite (towards_overlap q) by auto. fold w. apply Cmod_eq_0 in Z. rewrite Z, Cmod_0. cbn. unfold Rdiv. ring.
    + set (z := (w / RtoC (Cmod w))%C). exists z. split.
      * unfold z. rewrite Cmod_div by (intros Q; apply Z; apply (f_equal Cmod) in Q; rewrite Cmod_R, Cmod_0, Rabs_pos_eq in Q; auto using Cmod_ge_0).
        rewrite Cmod_R, Rabs_pos_eq by apply Cmod_ge_0. field. auto.
      * rewrite (towards_overlap q) by auto. fold w. do 2 f_equal.
        transitivity (Cmod w * Cmod w / Cmod w)%R; [field; auto|]. rewrite Cmod_sqr. unfold z. destruct w as [x y]. cbn in *. field. auto.
Qed.
End Figures.

(** ** Areas *)
Section Area.
Context (N : nat) (rt : routines) (EX : exact_routines N rt).
Notation A := (MatAlg N rt).
Notation lin_of := (lincomb (A := A)).

Lemma lin_add (cs : list mat) : forall r r' x y, matrix N N x -> matrix N N y -> Forall (matrix N N) cs -> length r = length cs -> length r' = length cs ->
  madd (lin_of x r cs) (lin_of y r' cs) = lin_of (madd x y) (map2 Rplus r r') cs.
Proof.
  induction cs as [|c cs IH]; intros [|u r] [|u' r'] x y Hx Hy F L L'; try discriminate; auto.
  inversion F as [|? ? Hc F']; subst. cbn [lincomb map2]. destruct Hx as [Sx Px], Hy as [Sy Py], Hc as [Sc Pc].
  rewrite IH by (auto; split; cbn; auto with mat). f_equal. cbn [oadd oscale MatAlg].
  apply (mat_ext N N); auto with mat. intros i j Hi Hj. rewrite !(madd_ent N N), !(mscal_ent N N) by auto with mat. apply injective_projections; cbn; ring.
Qed.
Lemma lin_scale t (cs : list mat) : forall r x, matrix N N x -> Forall (matrix N N) cs ->
  mscal (RtoC t) (lin_of x r cs) = lin_of (mscal (RtoC t) x) (map (Rmult t) r) cs.
Proof.
  induction cs as [|c cs IH]; intros [|u r] x Hx F; auto. inversion F as [|? ? Hc F']; subst. cbn [lincomb map].
  destruct Hx as [Sx Px], Hc as [Sc Pc]. rewrite IH by (auto; split; cbn; auto with mat). f_equal. cbn [oadd oscale MatAlg].
  apply (mat_ext N N); auto with mat. intros i j Hi Hj. rewrite !(madd_ent N N), !(mscal_ent N N), (madd_ent N N), !(mscal_ent N N) by auto with mat. apply injective_projections; cbn; ring.
Qed.
Lemma lin_commutes y (cs : list mat) : matrix N N y -> Forall (matrix N N) cs -> (forall c, In c cs -> mmul y c = mmul c y) ->
  forall r x, matrix N N x -> mmul y x = mmul x y -> mmul y (lin_of x r cs) = mmul (lin_of x r cs) y.
Proof.
  intros Hy F. induction F as [|c cs Hc F IH]; intros H [|u r] x Hx E; auto. cbn [lincomb]. apply IH.
  - intros. apply H. right; auto.
  - destruct Hx, Hc. split; cbn; auto with mat.
  - destruct Hx, Hc, Hy. cbn [oadd oscale MatAlg]. rewrite (mmul_add_l N N N), (mmul_add_r N N N), (mmul_scal_l N N N), (mmul_scal_r N N N), E by auto with mat.
    rewrite (H c) by (left; auto). auto.
Qed.
Lemma lin_zero m (cs : list mat) x : matrix N N x -> Forall (matrix N N) cs -> length cs = m ->
  lin_of (mscal (RtoC 0) x) (repeat 0%R m) cs = mzero N N.
Proof.
  intros [Sx Px] F <-. assert (Z : forall c, sized N N c -> mscal (RtoC 0) c = mzero N N).
  { intros c Sc. apply (mat_ext N N); auto with mat. intros i j Hi Hj. rewrite (mscal_ent N N) by auto. unfold mzero. rewrite ent_tab by auto. ring. }
  rewrite Z by auto. clear x Sx Px. induction F as [|c cs [Sc Pc] F IH]; auto. cbn [length repeat lincomb oadd oscale MatAlg].
  rewrite Z by auto. replace (madd (mzero N N) (mzero N N)) with (mzero N N); auto. apply (mat_ext N N); auto with mat.
  intros i j Hi Hj. rewrite (madd_ent N N) by auto with mat. unfold mzero. rewrite ent_tab by auto. ring.
Qed.

(** The areas of all controls. *)
Fixpoint areas (m : nat) (ts : list R) (a : amps) : list R :=
  match ts, a with t :: ts, row :: a => map2 Rplus (map (Rmult t) row) (areas m ts a) | _, _ => repeat 0%R m end.
Lemma areas_length m ts : forall a, Forall (fun r => length r = m) a -> length (areas m ts a) = m.
Proof.
  induction ts as [|t ts IH]; intros [|row a] F; cbn; try apply repeat_length. inversion F; subst. apply map2_len; [rewrite map_length; auto|apply IH; auto].
Qed.
Lemma nth_map2 l : forall l' j, length l = length l' -> (nth j (map2 Rplus l l') 0 = nth j l 0 + nth j l' 0)%R.
Proof. induction l as [|x l IH]; intros [|y l'] j L; try discriminate; destruct j; cbn; try ring. apply IH. cbn in L. lia. Qed.
Lemma rep0 j m : nth j (repeat 0%R m) 0%R = 0%R.
Proof. revert j. induction m as [|m IH]; intros [|j]; cbn; auto. Qed.
Lemma areas_nth m ts : forall a j, Forall (fun r => length r = m) a -> nth j (areas m ts a) 0%R = area ts a j.
Proof.
  unfold area. induction ts as [|t ts IH]; intros [|row a] j F; cbn [areas map2 total fold_right]; try (apply rep0; fail).
  inversion F; subst. rewrite nth_map2 by (rewrite map_length, areas_length; auto).
  rewrite IH by auto. unfold total. f_equal. destruct (Nat.lt_ge_cases j (length row)).
  - rewrite nth_indep with (d' := (t * 0)%R) by (rewrite map_length; auto). apply map_nth.
  - rewrite !nth_overflow by (try rewrite map_length; auto). ring.
Qed.
Lemma areas_same m ts ts' a a' : Forall (fun r => length r = m) a -> Forall (fun r => length r = m) a' ->
  (forall j, j < m -> area ts' a' j = area ts a j) -> areas m ts' a' = areas m ts a.
Proof.
  intros F F' H. apply nth_ext with (d := 0%R) (d' := 0%R); [rewrite !areas_length; auto|]. intros j Hj. rewrite areas_length in Hj by auto.
  rewrite !areas_nth by auto. auto.
Qed.

Lemma evolve_areas q m D CS ts : matrix N N D -> Forall (matrix N N) CS -> length CS = m ->
  (forall x y, In x (D :: CS) -> In y (D :: CS) -> mmul x y = mmul y x) ->
  forall a x, length a = length ts -> Forall (fun r => length r = m) a -> matrix N q x ->
  evolve (A := A) (map2 (fun t row => mexp (mscal (RtoC t) (lin_of D row CS))) ts a) x =
  mmul (mexp (lin_of (mscal (RtoC (total ts)) D) (areas m ts a) CS)) x.
Proof.
  intros HD F L HC. assert (SC : forall t, matrix N N (mscal (RtoC t) D)) by (intros t; destruct HD; split; auto with mat).
  induction ts as [|t ts IH]; intros [|row a] x La Fa [Sx Px]; try discriminate.
  - cbn [map2 evolve fold_left total fold_right areas]. rewrite lin_zero, mexp_zero by auto. symmetry. apply (mmul_1_l N q); auto.
  - inversion Fa as [|? ? Lr Fa']; subst. injection La as La. cbn [map2 evolve fold_left areas].
    change (fold_left (fun y p => omul A p y) ?l ?y) with (evolve (A := A) l y).
    set (Z := mscal (RtoC t) (lin_of D row CS)). cbn [omul MatAlg].
    assert (MZ : matrix N N Z) by (unfold Z; destruct (lin_matrix N rt D row CS HD F); split; auto with mat).
    destruct MZ as [SZ PZ]. rewrite IH by (auto; split; eauto using mexp_sized with mat).
    set (Y := lin_of (mscal (RtoC (total ts)) D) (areas (length CS) ts a) CS).
    assert (MY : matrix N N Y) by (apply lin_matrix; auto). destruct MY as [SY PY].
    rewrite mmul_assoc. f_equal. rewrite <- (mexp_add N); auto.
    + f_equal. unfold Y, Z. rewrite lin_scale by auto. rewrite (madd_comm N N), lin_add; auto with mat.
      * f_equal. cbn [total fold_right]. change (fold_right Rplus 0%R ts) with (total ts). destruct HD as [SD PD]. apply (mat_ext N N); auto with mat.
        intros i j Hi Hj. rewrite (madd_ent N N), !(mscal_ent N N) by auto with mat. apply injective_projections; cbn; ring.
      * rewrite map_length. auto.
      * apply areas_length; auto.
      * apply lin_matrix; auto. 
    + (* all of it commutes *)
      assert (B : forall c, In c (D :: CS) -> matrix N N c) by (intros c [<-|Hc]; auto; rewrite Forall_forall in F; auto).
      assert (P1 : forall c, In c (D :: CS) -> mmul c Z = mmul Z c).
      { intros c Hc. assert (E : mmul c (lin_of D row CS) = mmul (lin_of D row CS) c).
        - apply lin_commutes; auto; [|apply HC; auto; left; auto]. intros c' Hc'. apply HC; auto. right; auto.
        - destruct (lin_matrix N rt D row CS HD F) as [S1 P1]. destruct (B c Hc). unfold Z.
          rewrite (mmul_scal_l N N N), (mmul_scal_r N N N), E by auto. auto. }
      unfold Y. symmetry. apply lin_commutes; auto; [split; auto|intros c Hc; symmetry; apply P1; right; auto|].
      destruct HD as [SD PD]. rewrite (mmul_scal_l N N N), (mmul_scal_r N N N) by auto. f_equal. symmetry. apply P1. left; auto.
Qed.

Lemma map3_repeat {X Y Z W} (f : X -> Y -> Z -> W) x z (a : list Y) : forall n, length a = n -> map3 f (repeat x n) a (repeat z n) = map (fun y => f x y z) a.
Proof. induction a as [|y a IH]; intros n <-; cbn; auto. rewrite IH; auto. Qed.
Lemma map2_map_r {X Y Z W} (f : X -> Z -> W) (g : Y -> Z) l : forall l', map2 f l (map g l') = map2 (fun x y => f x (g y)) l l'.
Proof. induction l as [|x l IH]; intros [|y l']; cbn; auto. rewrite IH; auto. Qed.

Lemma steady_final q (s : settings A) n m d cs a : sized_problem N rt q s -> well_posed s n m ->
  steady N rt d cs s -> commuting N rt d cs s -> shape n m a ->
  matrix N N d /\ Forall (matrix N N) cs /\ length cs = m /\
  final_of s a = mmul (mexp (lin_of (mscal (RtoC (total (s_tau s))) (with_phase s d)) (areas m (s_tau s) a) (map (with_phase s) cs))) (s_initial s).
Proof.
  intros SP W [E1 E2] HC [La Fa]. destruct (slots_known N rt s n m W) as (ds & css & D1 & D2 & L1 & L2 & L3 & HP & HG).
  rewrite (wp_tau _ _ _ W) in *. pose proof (some_inj _ _ (eq_trans (eq_sym D1) E1)) as ->. pose proof (some_inj _ _ (eq_trans (eq_sym D2) E2)) as ->.
  destruct (HP _ (sp_gens _ _ _ _ SP)) as [Fd Fc]. pose proof (wp_pos _ _ _ W) as Hn.
  assert (Md : matrix N N d) by (destruct n; [lia|]; inversion Fd; auto).
  assert (Mc : Forall (matrix N N) cs) by (destruct n; [lia|]; inversion Fc; auto).
  assert (Lc : length cs = m) by (destruct n; [lia|]; inversion L3; auto).
  splits; auto. pose proof (is_lin N rt q s SP) as LN.
  assert (Mp : forall x, matrix N N x -> matrix N N (with_phase s x)) by (intros; eapply with_phase_matrix; eauto).
  assert (MC : Forall (matrix N N) (map (with_phase s) cs)) by (apply Forall_map; eapply Forall_impl; [|exact Mc]; exact Mp).
  rewrite <- (evolve_areas q m (with_phase s d) (map (with_phase s) cs) (s_tau s)); auto.
  - unfold final_of. f_equal. unfold props_of, propagators. rewrite HG, map3_repeat, map2_map_r by auto. apply map2_ext. intros t row.
    rewrite (prop_is N rt EX q s SP) by (apply lin_matrix; auto). unfold phased. f_equal. cbn [oscale MatAlg]. f_equal.
    symmetry. apply lincomb_each; auto. apply with_phase_additive; auto.
  - rewrite map_length. auto.
  - intros x y Hx Hy. change (with_phase s d :: map (with_phase s) cs) with (map (with_phase s) (d :: cs)) in Hx, Hy.
    apply in_map_iff in Hx as (x' & <- & Hx), Hy as (y' & <- & Hy). apply HC; auto.
  - rewrite (wp_tau _ _ _ W). auto.
  - apply SP.
Qed.
End Area.

(** ** Drive *)
Section Drive.
Context (N : nat) (rt : routines) (EX : exact_routines N rt).
Notation A := (MatAlg N rt).
Context (q n m : nat) (s : settings A).
Hypothesis SP : sized_problem N rt q s.
Hypothesis W : well_posed s n m.
Hypothesis HD : diag_suits N rt s.
Hypothesis HH : hamiltonian_problem N rt s.
(** The same problem with no time at all. *)
Definition stopped : settings A := s <| s_tau := repeat 0%R n |>.
Lemma stopped_sized : sized_problem N rt q stopped.
Proof. destruct SP. constructor; auto. Qed.
Lemma stopped_well : well_posed stopped n m.
Proof. destruct W. constructor; auto. apply repeat_length. Qed.
Lemma stopped_ham : hamiltonian_problem N rt stopped.
Proof. destruct HH. constructor; auto. Qed.
Lemma stopped_suits : diag_suits N rt stopped.
Proof. intros E. destruct (HD E). split; auto using stopped_ham. Qed.
Lemma stopped_final a : shape n m a -> final_of stopped a = s_initial s.
Proof.
  intros Ha. unfold final_of. change (s_initial stopped) with (s_initial s).
  assert (F : Forall (fun p => p = mid N) (props_of stopped a)).
  { apply Forall_forall. intros p Hp. apply In_nth_error in Hp as (k & Ek).
    destruct (mlens N rt EX q stopped n m stopped_sized stopped_well stopped_suits a Ha) as [L _].
    assert (Hk : k < n) by (rewrite <- L; apply nth_lt in Ek; auto).
    destruct (mslot N rt EX q stopped n m stopped_sized stopped_well stopped_suits a k Ha Hk) as (dr & c & d0 & row & cs & t & g & _ & _ & _ & _ & _ & Et & _ & _ & _ & Eg & Ep).
    pose proof (some_inj _ _ (eq_trans (eq_sym Ek) Ep)) as E. pose proof (gen_matrix N rt q stopped stopped_sized a k g Eg) as Hg.
    rewrite (eq_trans E (ham_prop N rt EX q stopped stopped_sized t g stopped_ham Hg)).
    cbn in Et. apply nth_error_In, repeat_spec in Et. subst t. destruct Hg as [Sg Pg].
    replace (mscal (RtoC 0 * - Ci)%C g) with (mzero N N); [apply mexp_zero|]. apply (mat_ext N N); auto with mat. intros i j Hi Hj.
    rewrite (mscal_ent N N) by auto. unfold mzero. rewrite ent_tab by auto. ring. }
  destruct (sp_initial _ _ _ _ SP) as [S P]. revert S P. generalize (s_initial s). induction F as [|p ps -> F IH]; intros x S P; auto.
  cbn [evolve fold_left]. cbn [omul MatAlg]. rewrite (mmul_1_l N q) by auto. apply IH; auto.
Qed.
Lemma drive_is ds cs a : shape n m a -> timing_error (s_tau s) (s_tau stopped) ds cs a = drive (s_tau s) ds cs a.
Proof.
  intros _. unfold timing_error, drive. f_equal. cbn. rewrite <- (wp_tau _ _ _ W). generalize (s_tau s). induction l as [|x l IH]; cbn; auto. rewrite IH. f_equal. ring.
Qed.
Lemma moved ds cs a : bounds_drifts N rt ds s -> bounds_ctrls N rt cs s -> shape n m a ->
  (distance N q (final_of s a) (s_initial s) <= drive (s_tau s) ds cs a * size N q (s_initial s))%R /\
  (gate_problem N rt q s ->
   Rabs (fid_err_of s a - figure N q s (s_target s) (s_initial s)) <= error_limit N rt q s (drive (s_tau s) ds cs a))%R.
Proof.
  intros B1 B2 Ha.
  assert (Q : (distance N q (final_of s a) (final_of stopped a) <= drive (s_tau s) ds cs a * size N q (s_initial s))%R).
  { rewrite <- drive_is by auto. apply (timing_close N rt EX q n m s stopped SP stopped_sized W stopped_well HD stopped_suits HH stopped_ham eq_refl ds cs a); auto.
    - unfold slot_drifts. change (eff_drift stopped) with (eff_drift s). cbn. rewrite repeat_length, (wp_tau _ _ _ W). auto.
    - unfold slot_ctrls. change (eff_ctrls stopped) with (eff_ctrls s). cbn. rewrite repeat_length, (wp_tau _ _ _ W). auto. }
  split; [rewrite stopped_final in Q by auto; exact Q|]. intros G. pose proof G as (G1 & G2 & G3 & G4).
  assert (E : fid_err_of stopped a = figure N q s (s_target s) (s_initial s)).
  { rewrite (err_figure N rt EX q stopped n m a stopped_sized stopped_well stopped_suits stopped_ham) by (auto; split; auto).
    rewrite stopped_final by auto. reflexivity. }
  rewrite <- E. apply (errors_close N rt EX q n m s stopped SP stopped_sized W stopped_well HD stopped_suits HH stopped_ham eq_refl); auto.
  constructor; auto.
Qed.
End Drive.
