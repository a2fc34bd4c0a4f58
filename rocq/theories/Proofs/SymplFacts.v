(** Facts about the symplectic form and symplectic evolutions. *)
From Coq Require Import Reals Lra.
From Coquelicot Require Import Coquelicot.
From RecordUpdate Require Import RecordUpdate.
From Verif.Model Require Import Str Base Dyn Symplectic.
From Verif.Lib Require Import Lists Csum Mat MExp MCalc MDiag.
From Verif.Spec Require Import Evolution History MatAlg Sympl.
From Verif.Proofs Require Import DynInv DynRun DynHist DynHistory DynProps MatFacts MatGrad MatProps.
Local Open Scope nat_scope.
Set Bullet Behavior "Strict Subproofs".

Lemma pow_m1 j : ((-1) ^ j = if Nat.even j then 1 else -1)%R.
Proof. induction j; cbn [pow]; [reflexivity|]. rewrite IHj, Nat.even_succ, <- Nat.negb_even. destruct (Nat.even j); cbn; lra. Qed.

Lemma omega_is_J n : calc_omega n = J n.
Proof.
  apply tab_ext. intros j k Hj Hk. unfold omega_entry. rewrite !pow_m1.
  destruct (Nat.eqb_spec k (j + 1)); destruct (Nat.eqb_spec (k + 1) j); destruct (Nat.eqb_spec k (S j)); destruct (Nat.eqb_spec j (S k)); try lia;
    rewrite ?andb_true_r, ?andb_false_r; auto.
  - destruct (Nat.even j); f_equal; lra.
  - replace j with (S k) by lia. rewrite Nat.even_succ, <- Nat.negb_even. destruct (Nat.even k); cbn [negb]; f_equal; lra.
Qed.

Lemma J_matrix n : matrix (2 * n) (2 * n) (J n).
Proof. split; [apply tab_sized|apply tab_proper]. Qed.
Lemma J_sized n : sized (2 * n) (2 * n) (J n). Proof. apply J_matrix. Qed.
Lemma J_proper n : proper (J n). Proof. apply J_matrix. Qed.
#[export] Hint Resolve J_sized J_proper : mat.

Lemma J_real n : real_matrix (J n).
Proof. intros i j. unfold J, tab. cbn [ent]. destruct (_ && _); auto. destruct (_ && _); auto. destruct (_ && _); auto. Qed.

Lemma mneg_ent r c x i j : sized r c x -> i < r -> j < c -> ent (mneg x) i j = (- ent x i j)%C.
Proof. intros H Hi Hj. unfold mneg. rewrite (mscal_ent r c) by auto. apply C_eq; cbn; ring. Qed.
Lemma mneg_sized r c x : sized r c x -> sized r c (mneg x). Proof. apply mscal_sized. Qed.
Lemma mneg_proper x : proper (mneg x). Proof. apply proper_scal. Qed.
#[export] Hint Resolve mneg_sized mneg_proper : mat.

Lemma J_trans n : mtrans (J n) = mneg (J n).
Proof.
  apply (mat_ext (2 * n) (2 * n)); auto with mat. intros i j Hi Hj. rewrite (mtrans_ent (2 * n) (2 * n)), (mneg_ent (2 * n) (2 * n)) by auto with mat.
  unfold J. rewrite !ent_tab by auto.
  destruct (Nat.eqb_spec i (S j)); destruct (Nat.eqb_spec j (S i)); try lia; rewrite ?andb_true_r, ?andb_false_r.
  - destruct (Nat.even j); apply C_eq; cbn; ring.
  - destruct (Nat.even i); apply C_eq; cbn; ring.
  - apply C_eq; cbn; ring.
Qed.

(** The partner of a row. *)
Definition mate (i : nat) : nat := if Nat.even i then S i else i - 1.
Lemma even_2 n : Nat.even (2 * n) = true.
Proof. rewrite Nat.even_mul. auto. Qed.
Lemma mate_lt n i : i < 2 * n -> mate i < 2 * n.
Proof.
  unfold mate. intros H. destruct (Nat.even i) eqn:E; [|lia]. destruct (Nat.eq_dec (S i) (2 * n)) as [Q|]; [|lia].
  pose proof (even_2 n) as Q2. rewrite <- Q, Nat.even_succ, <- Nat.negb_even, E in Q2. discriminate.
Qed.
Lemma J_ent n i j : i < 2 * n -> j < 2 * n ->
  ent (J n) i j = if j =? mate i then (if Nat.even i then RtoC 1 else RtoC (-1)) else RtoC 0.
Proof.
  intros Hi Hj. unfold J, mate. rewrite ent_tab by auto. destruct (Nat.even i) eqn:E.
  - rewrite andb_true_l. destruct (Nat.eqb_spec j (S i)); auto. destruct (Nat.eqb_spec i (S j)) as [->|]; [|rewrite andb_false_r; auto].
    rewrite Nat.even_succ, <- Nat.negb_even in E. destruct (Nat.even j); auto. discriminate.
  - rewrite andb_false_l. destruct i as [|i]; [discriminate|]. cbn [Nat.eqb]. replace (S i - 1) with i by lia.
    rewrite Nat.even_succ, <- Nat.negb_even in E. destruct (Nat.eqb_spec i j); destruct (Nat.eqb_spec j i); try lia; subst; rewrite ?andb_true_r, ?andb_false_r; auto.
    destruct (Nat.even j); auto; discriminate.
Qed.
Lemma mate_mate i : mate (mate i) = i.
Proof.
  unfold mate. destruct (Nat.even i) eqn:E.
  - rewrite Nat.even_succ, <- Nat.negb_even, E. cbn [negb]. lia.
  - destruct i as [|i]; [discriminate|]. replace (S i - 1) with i by lia. rewrite Nat.even_succ, <- Nat.negb_even in E.
    destruct (Nat.even i); [auto|discriminate].
Qed.
Lemma mate_even i : Nat.even (mate i) = negb (Nat.even i).
Proof.
  unfold mate. destruct (Nat.even i) eqn:E; [rewrite Nat.even_succ, <- Nat.negb_even, E; auto|].
  destruct i as [|i]; [discriminate|]. replace (S i - 1) with i by lia. rewrite Nat.even_succ, <- Nat.negb_even in E. destruct (Nat.even i); auto.
Qed.
Lemma J_square n : mmul (J n) (J n) = mneg (mid (2 * n)).
Proof.
  apply (mat_ext (2 * n) (2 * n)); eauto with mat. intros i j Hi Hj.
  rewrite (mmul_ent (2 * n) (2 * n) (2 * n)), (mneg_ent (2 * n) (2 * n)), mid_ent by auto with mat.
  rewrite (csum_single _ (mate i)).
  - rewrite !J_ent by auto using mate_lt. rewrite mate_mate, Nat.eqb_refl, mate_even.
    destruct (Nat.eqb_spec j i); destruct (Nat.eqb_spec i j); try lia; destruct (Nat.even i); cbn [negb]; apply C_eq; cbn; ring.
  - apply mate_lt; auto.
  - intros k Hk Hn. rewrite (J_ent n i k) by auto. destruct (Nat.eqb_spec k (mate i)); [tauto|]. ring.
Qed.

Lemma mneg_mul_l r k c x y : sized r k x -> sized k c y -> mmul (mneg x) y = mneg (mmul x y).
Proof. apply mmul_scal_l. Qed.
Lemma mneg_mul_r r k c x y : sized r k x -> sized k c y -> mmul x (mneg y) = mneg (mmul x y).
Proof. apply mmul_scal_r. Qed.
Lemma mneg_neg r c x : sized r c x -> proper x -> mneg (mneg x) = x.
Proof. intros S P. apply (mat_ext r c); auto with mat. intros i j Hi Hj. rewrite !(mneg_ent r c) by auto with mat. ring. Qed.
Lemma madd_neg r c x : sized r c x -> madd x (mneg x) = mzero r c.
Proof.
  intros S. apply (mat_ext r c); auto with mat. intros i j Hi Hj. rewrite (madd_ent r c), (mneg_ent r c) by auto with mat.
  unfold mzero. rewrite ent_tab by auto. ring.
Qed.
Lemma madd_neg' r c x : sized r c x -> madd (mneg x) x = mzero r c.
Proof.
  intros S. apply (mat_ext r c); auto with mat. intros i j Hi Hj. rewrite (madd_ent r c), (mneg_ent r c) by auto with mat.
  unfold mzero. rewrite ent_tab by auto. ring.
Qed.
Lemma mtrans_neg r c x : sized r c x -> mtrans (mneg x) = mneg (mtrans x).
Proof. intros S. apply (mat_ext c r); auto with mat. intros i j Hi Hj. rewrite (mtrans_ent r c), !(mneg_ent r c), (mneg_ent c r), (mtrans_ent r c) by auto with mat. auto. Qed.

Section Gen.
Context (n : nat).
Notation D := (2 * n).
(** sign +1 or -1 times the phase: infinitesimally symplectic from either side. *)
Lemma pre_inf x : matrix D D x -> symmetric x -> inf_symplectic n (mmul (J n) x).
Proof.
  intros [S P] Hx. unfold inf_symplectic. rewrite (mtrans_mul D D D) by auto with mat. rewrite Hx, J_trans.
  rewrite (mneg_mul_r D D D), (mneg_mul_l D D D) by eauto with mat. rewrite <- mmul_assoc, J_square, mmul_assoc, J_square.
  rewrite (mneg_mul_r D D D), (mneg_mul_l D D D) by auto with mat. rewrite (mmul_1_r D D), (mmul_1_l D D) by auto.
  rewrite (mneg_neg D D) by auto. apply madd_neg. auto.
Qed.
Lemma inf_neg x : sized D D x -> inf_symplectic n x -> inf_symplectic n (mneg x).
Proof.
  unfold inf_symplectic. intros S H. rewrite (mtrans_neg D D), (mneg_mul_l D D D), (mneg_mul_r D D D) by auto with mat.
  unfold mneg. rewrite <- (mscal_add D D), H by eauto with mat.
  apply (mat_ext D D); auto with mat. intros i j Hi Hj. rewrite (mscal_ent D D) by auto with mat. unfold mzero. rewrite ent_tab by auto. ring.
Qed.
Lemma post_inf x : matrix D D x -> symmetric x -> inf_symplectic n (mmul x (J n)).
Proof.
  intros [S P] Hx. unfold inf_symplectic. rewrite (mtrans_mul D D D) by auto with mat. rewrite Hx, J_trans.
  rewrite (mneg_mul_l D D D), (mneg_mul_l D D D) by eauto with mat. rewrite <- mmul_assoc. apply madd_neg'. eauto with mat.
Qed.
Lemma inf_scal t x : sized D D x -> inf_symplectic n x -> inf_symplectic n (mscal t x).
Proof.
  unfold inf_symplectic. intros S H.
  assert (E : mtrans (mscal t x) = mscal t (mtrans x)).
  { apply (mat_ext D D); auto with mat. intros i j Hi Hj. rewrite (mtrans_ent D D), !(mscal_ent D D), (mtrans_ent D D) by auto with mat. auto. }
  rewrite E, (mmul_scal_l D D D), (mmul_scal_r D D D), <- (mscal_add D D), H by eauto with mat.
  apply (mat_ext D D); auto with mat. intros i j Hi Hj. rewrite (mscal_ent D D) by auto with mat. unfold mzero. rewrite ent_tab by auto. ring.
Qed.
Lemma exp_symplectic x : sized D D x -> inf_symplectic n x -> symplectic n (mexp x).
Proof.
  intros S H. split; [split; auto with mat|]. unfold form_of. rewrite <- (mexp_trans D) by auto. apply (mexp_conj D); auto with mat.
Qed.
Lemma form_mul p q x : symplectic n p -> sized D q x -> form_of n (mmul p x) = form_of n x.
Proof.
  intros [[S P] H] Sx. unfold form_of in *. rewrite (mtrans_mul D D q) by auto with mat. rewrite <- !mmul_assoc. f_equal.
  rewrite !mmul_assoc. rewrite H. auto.
Qed.
Lemma sympl_mul p x : symplectic n p -> symplectic n x -> symplectic n (mmul p x).
Proof. intros Hp [[S P] H]. split; [split; [destruct Hp as [[? ?] _]; eauto with mat|auto with mat]|]. rewrite (form_mul p D) by auto. auto. Qed.
Lemma mid_sympl : symplectic n (mid D).
Proof. split; [split; auto with mat|]. unfold form_of. rewrite mtrans_id, (mmul_1_l D D), (mmul_1_r D D) by auto with mat. auto. Qed.

Lemma ent_zero x i j : proper x -> (nr x <= i \/ nc x <= j) -> ent x i j = RtoC 0.
Proof. intros P H. rewrite <- P. apply ent_out. auto. Qed.
Lemma real_dag x : sized D D x -> proper x -> (mtrans x = mdag x <-> real_matrix x).
Proof.
  intros S P. split; intros H.
  - intros i j. destruct (le_lt_dec D i) as [Hi|Hi]; [|destruct (le_lt_dec D j) as [Hj|Hj]].
    + destruct S as [E1 E2]. rewrite ent_zero by (auto; lia). auto.
    + destruct S as [E1 E2]. rewrite ent_zero by (auto; lia). auto.
    + pose proof (mtrans_ent D D x j i S Hj Hi) as E1. pose proof (mdag_ent D D x j i S Hj Hi) as E2. rewrite H, E2 in E1.
      destruct (ent x i j) as [u v]. injection E1. cbn. intros. lra.
  - apply (mat_ext D D); auto with mat. intros i j Hi Hj. rewrite (mtrans_ent D D), (mdag_ent D D) by auto. apply C_eq; cbn; auto.
    pose proof (H j i) as Q. destruct (ent x j i) as [u v]. cbn in *. lra.
Qed.
Lemma exp_real x : sized D D x -> proper x -> real_matrix x -> real_matrix (mexp x).
Proof.
  intros S P H. apply real_dag; auto with mat. rewrite <- (mexp_trans D), <- (mexp_dag D) by auto. f_equal. apply real_dag; auto.
Qed.
Lemma mul_real r k c x y : sized r k x -> sized k c y -> real_matrix x -> real_matrix y -> real_matrix (mmul x y).
Proof.
  intros Sx Sy Hx Hy i j. destruct (le_lt_dec r i); [|destruct (le_lt_dec c j)].
  1,2: (pose proof (mmul_sized r k c x y Sx Sy) as [E1 E2]; rewrite ent_zero; auto with mat; lia).
  rewrite (mmul_ent r k c), csum_Im by auto. apply rsum_zero. intros z Hz. rewrite Im_mult, Hx, Hy. ring.
Qed.
Lemma scal_real r c t x : sized r c x -> real_matrix x -> real_matrix (mscal (RtoC t) x).
Proof.
  intros Sx Hx i j. destruct (le_lt_dec r i); [|destruct (le_lt_dec c j)].
  1,2: (pose proof (mscal_sized r c (RtoC t) x Sx) as [E1 E2]; rewrite ent_zero; auto with mat; lia).
  rewrite (mscal_ent r c) by auto. rewrite Im_mult, Hx. cbn. ring.
Qed.
Lemma add_real r c x y : sized r c x -> sized r c y -> real_matrix x -> real_matrix y -> real_matrix (madd x y).
Proof.
  intros Sx Sy Hx Hy i j. destruct (le_lt_dec r i); [|destruct (le_lt_dec c j)].
  1,2: (pose proof (madd_sized r c x y Sx) as [E1 E2]; rewrite ent_zero; auto with mat; lia).
  rewrite (madd_ent r c) by auto. rewrite Im_plus, Hx, Hy. ring.
Qed.
Lemma symm_closed x y u : matrix D D x /\ symmetric x -> matrix D D y /\ symmetric y ->
  matrix D D (madd x (mscal (RtoC u) y)) /\ symmetric (madd x (mscal (RtoC u) y)).
Proof.
  intros [[Sx Px] Hx] [[Sy Py] Hy]. split; [split; auto with mat|]. unfold symmetric in *.
  apply (mat_ext D D); auto with mat. intros i j Hi Hj. rewrite (mtrans_ent D D), !(madd_ent D D), !(mscal_ent D D) by auto with mat.
  rewrite <- Hx at 1. rewrite <- Hy at 1. rewrite !(mtrans_ent D D) by auto. auto.
Qed.
Lemma real_closed x y u : matrix D D x /\ real_matrix x -> matrix D D y /\ real_matrix y ->
  matrix D D (madd x (mscal (RtoC u) y)) /\ real_matrix (madd x (mscal (RtoC u) y)).
Proof.
  intros [[Sx Px] Hx] [[Sy Py] Hy]. split; [split; auto with mat|]. apply (add_real D D); auto with mat. apply (scal_real D D); auto.
Qed.
Lemma phase_matrix pre : matrix D D (sympl_phase n pre).
Proof. unfold sympl_phase. rewrite omega_is_J. destruct pre; split; auto with mat. Qed.
Lemma phase_inf (pre : bool) x : matrix D D x -> symmetric x ->
  inf_symplectic n (if pre then mmul (sympl_phase n true) x else mmul x (sympl_phase n false)).
Proof.
  intros Hm Hs. pose proof Hm as [S P]. unfold sympl_phase. rewrite omega_is_J. destruct pre; [apply pre_inf; auto|].
  rewrite (mneg_mul_r D D D) by auto with mat. apply inf_neg; [eauto with mat|]. apply post_inf; auto.
Qed.
Lemma phase_real pre : real_matrix (sympl_phase n pre).
Proof. unfold sympl_phase. rewrite omega_is_J. destruct pre; [apply J_real|]. apply (scal_real D D (-1)); auto with mat. apply J_real. Qed.
End Gen.

Section Sys.
Context (n : nat) (rt : routines) (EX : exact_routines (2 * n) rt).
Notation D := (2 * n).
Notation A := (MatAlg D rt).
Context (q : nat) (s : settings A) (ts m : nat) (pre : bool).
Hypothesis SP : sized_problem D rt q s.
Hypothesis W : well_posed s ts m.
Hypothesis YP : symplectic_problem n rt pre s.

Lemma yp_suits : diag_suits D rt s.
Proof. intros E. pose proof (wp_diag _ _ _ W E) as Q. rewrite (yp_class _ _ _ _ YP) in Q. discriminate. Qed.
Notation HD := yp_suits.

Lemma yp_gen a k g : nth_error (gens_of s a) k = Some g -> symmetric g.
Proof.
  intros E. pose proof (gens_closed D rt _ s a (symm_closed n) (generators_and D rt s _ _ (sp_gens _ _ _ _ SP) (yp_symm _ _ _ _ YP))) as F.
  rewrite Forall_forall in F. eapply F, nth_error_In; eauto.
Qed.
Lemma yp_real a k g : generators_all D rt real_matrix s -> nth_error (gens_of s a) k = Some g -> real_matrix g.
Proof.
  intros H E. pose proof (gens_closed D rt _ s a (real_closed n) (generators_and D rt s _ _ (sp_gens _ _ _ _ SP) H)) as F.
  rewrite Forall_forall in F. eapply F, nth_error_In; eauto.
Qed.
Definition yphased (g : mat) : mat := if pre then mmul (sympl_phase n true) g else mmul g (sympl_phase n false).
Lemma yp_with g : with_phase s g = yphased g.
Proof.
  unfold with_phase, yphased. rewrite (yp_phase _ _ _ _ YP), (yp_app _ _ _ _ YP). destruct pre; reflexivity.
Qed.
Lemma yphased_matrix g : matrix D D g -> matrix D D (yphased g).
Proof. intros [S P]. unfold yphased. destruct pre; split; auto with mat; eapply mmul_sized; eauto; apply phase_matrix. Qed.
Lemma yp_prop t g : matrix D D g -> propagator s t g = mexp (mscal (RtoC t) (yphased g)).
Proof. intros Hg. rewrite (prop_is D rt EX q s SP t g Hg). unfold phased. rewrite yp_with. reflexivity. Qed.
Lemma yp_props a : shape ts m a -> Forall (symplectic n) (props_of s a).
Proof.
  intros Ha. apply Forall_forall. intros p Hp. apply In_nth_error in Hp as (k & E).
  destruct (mlens D rt EX q s ts m SP W HD a Ha) as [L _]. assert (Hk : k < ts) by (rewrite <- L; apply nth_lt in E; auto).
  destruct (mslot D rt EX q s ts m SP W HD a k Ha Hk) as (dr & c & d0 & row & cs & t & g & _ & _ & _ & _ & _ & _ & _ & _ & _ & Eg & Ep).
  pose proof (eq_trans (eq_sym E) Ep) as Q. injection Q as ->. pose proof (gen_matrix D rt q s SP a k g Eg) as Hg.
  refine (eq_ind_r (symplectic n) _ (yp_prop t g Hg)). destruct (yphased_matrix g Hg). apply exp_symplectic; auto with mat.
  apply inf_scal; auto. unfold yphased. apply phase_inf; auto. eapply yp_gen; eauto.
Qed.
Lemma yp_final a : shape ts m a -> form_of n (final_of s a) = form_of n (s_initial s).
Proof.
  intros Ha. pose proof (yp_props a Ha) as F. unfold final_of. destruct (sp_initial _ _ _ _ SP) as [S0 _]. revert S0. generalize (s_initial s).
  induction F as [|p ps Hp F IH]; intros x Sx; cbn [evolve fold_left]; auto. etransitivity; [apply (IH (mmul p x))|].
  - destruct Hp as [[? ?] _]. cbn [omul MatAlg] in *. eapply mmul_sized; eauto.
  - eapply form_mul; eauto.
Qed.
Lemma yp_props_real a : shape ts m a -> generators_all D rt real_matrix s -> Forall (fun p => sized D D p /\ real_matrix p) (props_of s a).
Proof.
  intros Ha HR. apply Forall_forall. intros p Hp. apply In_nth_error in Hp as (k & E).
  destruct (mlens D rt EX q s ts m SP W HD a Ha) as [L _]. assert (Hk : k < ts) by (rewrite <- L; apply nth_lt in E; auto).
  destruct (mslot D rt EX q s ts m SP W HD a k Ha Hk) as (dr & c & d0 & row & cs & t & g & _ & _ & _ & _ & _ & _ & _ & _ & _ & Eg & Ep).
  pose proof (eq_trans (eq_sym E) Ep) as Q. injection Q as ->. pose proof (gen_matrix D rt q s SP a k g Eg) as Hg.
  pose proof (yp_real a k g HR Eg) as Hr.
  refine (eq_ind_r (fun p => sized D D p /\ real_matrix p) _ (yp_prop t g Hg)). destruct (yphased_matrix g Hg) as [S1 P1]. split; auto with mat.
  apply (exp_real n); auto with mat. apply (scal_real D D); auto. destruct Hg as [Sg Pg]. unfold yphased.
  destruct pre; apply (mul_real D D D); auto using phase_real; apply phase_matrix.
Qed.
Lemma yp_final_real a : shape ts m a -> generators_all D rt real_matrix s -> real_matrix (s_initial s) -> real_matrix (final_of s a).
Proof.
  intros Ha HR. pose proof (yp_props_real a Ha HR) as F. unfold final_of. destruct (sp_initial _ _ _ _ SP) as [S0 _]. revert S0. generalize (s_initial s).
  induction F as [|p ps [Hp Hr] F IH]; intros x Sx Hx; cbn [evolve fold_left]; auto. apply (IH (mmul p x)).
  - eapply mmul_sized; eauto.
  - apply (mul_real D D q); auto.
Qed.
End Sys.

(** ** The phase and its application over histories *)
Section Hist.
Context (n : nat).
Notation D := (2 * n).

Definition is_app (v : string) : Prop := v = "preop"%string \/ v = "postop"%string.
Definition side (v : string) : bool := String.eqb v "preop".

(** Whatever the order of the calls. *)
Record ok_hist (y : sympl) : Prop := {
  oh_drift : y_drift y = D;
  oh_shape : y_shape y = None \/ y_shape y = Some D;
  oh_omega : y_omega y = None \/ y_omega y = Some (J n);
  oh_phase : y_phase y = None \/ y_phase y = Some (J n) \/ y_phase y = Some (mneg (J n));
  oh_app : is_app (y_app y);
  oh_init : y_init y = true -> y_phase y <> None /\ y_pre y <> None;
}.
Lemma half : D / 2 = n. Proof. rewrite Nat.mul_comm. apply Nat.div_mul. lia. Qed.
Lemma get_omega_ok y : ok_hist y -> exists y', get_omega y = (y', J n) /\ ok_hist y' /\
  y_phase y' = y_phase y /\ y_pre y' = y_pre y /\ y_app y' = y_app y /\ y_init y' = y_init y.
Proof.
  intros [H1 H2 H3 H4 H5 H6]. unfold get_omega. destruct H3 as [E|E]; rewrite E.
  - unfold drift_dim. destruct H2 as [E2|E2]; rewrite E2; rewrite ?H1, half, omega_is_J;
      (eexists; split; [reflexivity|]; cbn; splits; auto; constructor; cbn; auto).
  - exists y. splits; auto. constructor; auto.
Qed.
Definition right_phase (v : string) : mat := if side v then J n else mneg (J n).
Lemma get_phase_ok y : ok_hist y -> exists y', get_dyn_gen_phase y = Ok (y', Some (right_phase (y_app y))) /\ ok_hist y' /\
  y_phase y' = y_phase y /\ y_pre y' = y_pre y /\ y_app y' = y_app y /\ y_init y' = y_init y.
Proof.
  intros H. destruct (get_omega_ok y H) as (y' & E & H' & Q). exists y'. split; [|auto]. unfold get_dyn_gen_phase, right_phase, side.
  destruct (oh_app y H) as [-> | ->]; cbn; rewrite E; auto.
Qed.
Lemma right_cases v : right_phase v = J n \/ right_phase v = mneg (J n).
Proof. unfold right_phase. destruct (side v); auto. Qed.
Lemma read_phase_ok y : ok_hist y -> exists y' p, read_phase y = Ok (y', Some p) /\ ok_hist y' /\ y_phase y' = Some p /\
  y_pre y' = y_pre y /\ y_app y' = y_app y /\ y_init y' = y_init y /\ (y_phase y = None -> p = right_phase (y_app y)).
Proof.
  intros H. unfold read_phase. destruct (y_phase y) as [p|] eqn:E.
  - exists y, p. splits; auto; discriminate.
  - destruct (get_phase_ok y H) as (y' & E1 & H' & Q1 & Q2 & Q3 & Q4). rewrite E1. cbn [bind]. eexists _, _. split; [reflexivity|].
    splits; cbn; auto. destruct H' as [h1 h2 h3 h4 h5 h6]. constructor; cbn; auto.
    + destruct (right_cases (y_app y)) as [-> | ->]; auto.
    + intros Hi. split; [discriminate|]. apply h6; auto.
Qed.
Lemma config_ok v y : is_app v -> config_phase_application v y = Ok (y <| y_pre := Some (side v) |>).
Proof. intros [-> | ->]; reflexivity. Qed.
Lemma step_ok o y : ok_hist y -> known_app o -> same_size o -> exists y', sstep o y = Ok y' /\ ok_hist y'.
Proof.
  intros H Hk Hs. destruct o as [d| | |v|]; cbn [sstep].
  - destruct Hs.
  - destruct (read_phase_ok y H) as (y' & p & E & H' & _). rewrite E. cbn. eauto.
  - destruct (get_omega_ok y H) as (y' & E & H' & _). rewrite E. cbn. eauto.
  - unfold set_application. rewrite config_ok by exact Hk. cbn [bind].
    assert (H1 : ok_hist (y <| y_pre := Some (side v) |> <| y_app := v |>)).
    { destruct H as [h1 h2 h3 h4 h5 h6]. constructor; cbn; auto. intros Hi. destruct (h6 Hi). split; auto; discriminate. }
    cbn [y_init] in *. destruct (y_init _) eqn:Ei; [|eauto].
    destruct (get_phase_ok _ H1) as (y' & E & H' & Q1 & Q2 & Q3 & Q4). rewrite E. cbn [bind]. eexists. split; [reflexivity|].
    destruct H' as [h1 h2 h3 h4 h5 h6]. constructor; cbn; auto.
    + destruct (right_cases v) as [-> | ->]; auto.
    + intros Hi. split; [discriminate|]. apply h6; auto.
  - unfold init_evo_phase. assert (H1 : ok_hist (refresh_shape y)).
    { destruct H as [h1 h2 h3 h4 h5 h6]. constructor; cbn; auto. }
    destruct (read_phase_ok _ H1) as (y' & p & E & H' & Q1 & Q2 & Q3 & Q4 & _). rewrite E. cbn [bind].
    rewrite config_ok by apply H'. cbn [bind]. eexists. split; [reflexivity|].
    destruct H' as [h1 h2 h3 h4 h5 h6]. constructor; cbn; auto. intros _. rewrite Q1. split; discriminate.
Qed.
Lemma runs_ok l : forall y, ok_hist y -> Forall known_app l -> Forall same_size l -> exists y', sruns l y = Ok y' /\ ok_hist y'.
Proof.
  induction l as [|o l IH]; intros y H Hk Hs; cbn [sruns]; eauto. inversion Hk; inversion Hs; subst.
  destruct (step_ok o y H) as (y' & E & H'); auto. rewrite E. cbn [bind]. auto.
Qed.
Lemma new_ok : ok_hist (new_sympl D).
Proof. constructor; cbn; auto. right. auto. Qed.
Lemma init_stays o y y' : sstep o y = Ok y' -> y_init y = true -> y_init y' = true.
Proof.
  destruct o; cbn [sstep]; intros E Hi.
  - injection E as <-. auto.
  - unfold read_phase in E. destruct (y_phase y); cbn in E; [injection E as <-; auto|].
    unfold get_dyn_gen_phase in E. destruct (String.eqb _ _); [|destruct (String.eqb _ _); [|destruct (String.eqb _ _); [|discriminate]]];
      cbn in E; try (unfold get_omega, drift_dim in E; destruct (y_omega y); [|destruct (y_shape y)]); injection E as <-; auto.
  - unfold get_omega, drift_dim in E. destruct (y_omega y); [|destruct (y_shape y)]; injection E as <-; auto.
  - unfold set_application in E. destruct (config_phase_application v y) as [y1|] eqn:E1; [|discriminate]. cbn [bind] in E.
    assert (Hi1 : y_init y1 = true).
    { unfold config_phase_application in E1. repeat (destruct (String.eqb _ _); [injection E1 as <-; auto|]). discriminate. }
    cbn in E. rewrite Hi1 in E. unfold get_dyn_gen_phase in E.
    destruct (String.eqb _ _); [|destruct (String.eqb _ _); [|destruct (String.eqb _ _); [|discriminate]]];
      cbn in E; try (unfold get_omega, drift_dim in E; cbn in E; destruct (y_omega y1); [|destruct (y_shape y1)]); injection E as <-; auto.
  - unfold init_evo_phase in E. apply bind_inv in E as ((y1 & p) & _ & E). cbn beta iota in E. apply bind_inv in E as (y2 & _ & E). injection E as <-. auto.
Qed.

(** With the phase first read by the initialisation. *)
Record fresh (y : sympl) : Prop := {
  fr_ok : ok_hist y;
  fr_phase : y_phase y = None;
  fr_init : y_init y = false;
}.
Record current (y : sympl) : Prop := {
  cu_ok : ok_hist y;
  cu_init : y_init y = true;
  cu_phase : y_phase y = Some (right_phase (y_app y));
  cu_pre : y_pre y = Some (side (y_app y));
}.
Lemma fresh_step o y : fresh y -> known_app o -> same_size o -> o <> ReadPhase -> o <> Initialise ->
  exists y', sstep o y = Ok y' /\ fresh y' /\ y_app y' = last_app (y_app y) [o].
Proof.
  intros [H F1 F2] Hk Hs N1 N2. destruct o as [d| | |v|]; cbn [sstep]; try tauto.
  - destruct (get_omega_ok y H) as (y' & E & H' & Q1 & Q2 & Q3 & Q4). rewrite E. cbn. exists y'. splits; auto. constructor; auto; congruence.
  - destruct (step_ok (SetApplication v) y H Hk Hs) as (y' & E & H'). exists y'. split; auto. cbn [sstep] in E.
    unfold set_application in E. rewrite config_ok in E by exact Hk. cbn in E. rewrite F2 in E. injection E as <-. split; [constructor; auto|]. auto.
Qed.
Lemma fresh_runs l : forall y, fresh y -> Forall known_app l -> Forall same_size l -> ~ In ReadPhase l -> ~ In Initialise l ->
  exists y', sruns l y = Ok y' /\ fresh y' /\ y_app y' = last_app (y_app y) l.
Proof.
  induction l as [|o l IH]; intros y H Hk Hs N1 N2; cbn [sruns]; eauto. inversion Hk; inversion Hs; subst.
  destruct (fresh_step o y H) as (y1 & E & F & A); auto; try (intros ->; cbn in *; tauto).
  rewrite E. cbn [bind]. destruct (IH y1 F) as (y2 & E2 & F2 & A2); auto; try (cbn in *; tauto).
  exists y2. splits; auto. rewrite A2, A. destruct o; auto.
Qed.
Lemma fresh_init y : fresh y -> exists y', sstep Initialise y = Ok y' /\ current y' /\ y_app y' = y_app y.
Proof.
  intros [H F1 F2]. destruct (step_ok Initialise y H I I) as (y' & E & H'). exists y'. split; auto.
  cbn [sstep] in E. unfold init_evo_phase in E. assert (H1 : ok_hist (refresh_shape y)).
  { destruct H as [h1 h2 h3 h4 h5 h6]. constructor; cbn; auto; rewrite h1; auto. }
  destruct (read_phase_ok _ H1) as (y1 & p & E1 & H2 & Q1 & Q2 & Q3 & Q4 & Q5). rewrite E1 in E. cbn [bind] in E.
  rewrite config_ok in E by apply H2. cbn [bind] in E. injection E as <-. specialize (Q5 F1). cbn in Q3.
  split; [constructor; auto|]; cbn; rewrite ?Q3; auto. rewrite Q1, Q5. auto.
Qed.
Lemma current_step o y : current y -> known_app o -> same_size o ->
  exists y', sstep o y = Ok y' /\ current y' /\ y_app y' = last_app (y_app y) [o].
Proof.
  intros [H C1 C2 C3] Hk Hs. destruct (step_ok o y H Hk Hs) as (y' & E & H'). exists y'. split; auto.
  pose proof (init_stays o y y' E C1) as I'. destruct o as [d| | |v|]; cbn [sstep] in E.
  - destruct Hs.
  - destruct (read_phase_ok y H) as (y1 & p & E1 & H1 & Q1 & Q2 & Q3 & Q4 & _). rewrite E1 in E. cbn in E. injection E as <-.
    unfold read_phase in E1. rewrite C2 in E1. injection E1 as <- <-. split; [constructor; auto|auto].
  - destruct (get_omega_ok y H) as (y1 & E1 & H1 & Q1 & Q2 & Q3 & Q4). rewrite E1 in E. cbn in E. injection E as <-.
    split; [constructor; auto; rewrite ?Q1, ?Q2, Q3; auto|auto].
  - unfold set_application in E. rewrite config_ok in E by exact Hk. cbn [bind] in E.
    assert (H1 : ok_hist (y <| y_pre := Some (side v) |> <| y_app := v |>)).
    { destruct H as [h1 h2 h3 h4 h5 h6]. constructor; cbn; auto. intros Hi. destruct (h6 Hi). split; auto; discriminate. }
    cbn [y_init] in E. change (y_init (y <| y_pre := Some (side v) |> <| y_app := v |>)) with (y_init y) in E. rewrite C1 in E.
    destruct (get_phase_ok _ H1) as (y1 & E1 & H2 & Q1 & Q2 & Q3 & Q4). rewrite E1 in E. cbn [bind] in E. injection E as <-.
    cbn in Q2, Q3. split; [constructor; auto; cbn; rewrite ?Q3, ?Q2; auto|cbn; auto].
  - unfold init_evo_phase in E. unfold read_phase in E. change (y_phase (refresh_shape y)) with (y_phase y) in E. rewrite C2 in E. cbn [bind] in E.
    rewrite config_ok in E by apply H. cbn [bind] in E. injection E as <-. split; [constructor; auto|auto].
Qed.
Lemma current_runs l : forall y, current y -> Forall known_app l -> Forall same_size l ->
  exists y', sruns l y = Ok y' /\ current y' /\ y_app y' = last_app (y_app y) l.
Proof.
  induction l as [|o l IH]; intros y H Hk Hs; cbn [sruns]; eauto. inversion Hk; inversion Hs; subst.
  destruct (current_step o y H) as (y1 & E & F & A); auto. rewrite E. cbn [bind].
  destruct (IH y1 F) as (y2 & E2 & F2 & A2); auto. exists y2. splits; auto. rewrite A2, A. destruct o; auto.
Qed.
Lemma sruns_app l1 l2 y : sruns (l1 ++ l2) y = bind (sruns l1 y) (sruns l2).
Proof. revert y. induction l1 as [|o l1 IH]; intros y; cbn [sruns app]; auto. destruct (sstep o y); cbn [bind]; auto. Qed.
Lemma last_app_app d l1 l2 : last_app d (l1 ++ l2) = last_app (last_app d l1) l2.
Proof. revert d. induction l1 as [|o l1 IH]; intros d; cbn; auto. destruct o; cbn; auto. Qed.
Lemma phase_history l1 l2 : Forall known_app (l1 ++ l2) -> Forall same_size (l1 ++ l2) -> ~ In ReadPhase l1 -> ~ In Initialise l1 ->
  exists y, sruns (l1 ++ Initialise :: l2) (new_sympl D) = Ok y /\
    forall g, phased_gen y g = documented n (last_app "postop" (l1 ++ l2)) g.
Proof.
  rewrite !Forall_app. intros [K1 K2] [S1 S2] N1 N2.
  destruct (fresh_runs l1 (new_sympl D)) as (y1 & E1 & F1 & A1); auto. { constructor; auto using new_ok. }
  destruct (fresh_init y1 F1) as (y2 & E2 & C2 & A2). destruct (current_runs l2 y2 C2 K2 S2) as (y3 & E3 & C3 & A3).
  exists y3. split. { rewrite sruns_app, E1. cbn [bind sruns]. rewrite E2. exact E3. }
  intros g. rewrite last_app_app. cbn in A1. rewrite <- A1, <- A2, <- A3. destruct C3 as [_ _ Q1 Q2]. unfold phased_gen, documented. rewrite Q1, Q2.
  unfold right_phase, side. destruct (String.eqb _ _); auto.
Qed.
Lemma any_history l : Forall known_app l -> Forall same_size l ->
  exists y, sruns l (new_sympl D) = Ok y /\
    (In Initialise l -> forall g, matrix D D g -> symmetric g -> inf_symplectic n (phased_gen y g)).
Proof.
  intros K S. destruct (runs_ok l (new_sympl D) new_ok K S) as (y & E & H). exists y. split; auto. intros Hi g Hg Hs.
  assert (I' : y_init y = true).
  { clear H K S. revert E. generalize (new_sympl D). induction l as [|o l IH]; intros y0 E; [destruct Hi|]. cbn [sruns] in E.
    destruct (sstep o y0) as [y1|] eqn:E1; [|discriminate]. cbn [bind] in E. destruct Hi as [->|Hi]; [|eauto].
    assert (I1 : y_init y1 = true).
    { cbn [sstep] in E1. unfold init_evo_phase in E1. apply bind_inv in E1 as ((a & p) & _ & E1). cbn beta iota in E1. apply bind_inv in E1 as (b & _ & E1). injection E1 as <-. auto. }
    clear E1 IH. revert y1 I1 E. induction l as [|o' l IH]; intros y1 I1 E; cbn [sruns] in E; [injection E as <-; auto|].
    destruct (sstep o' y1) as [y2|] eqn:E2; [|discriminate]. cbn [bind] in E. apply (IH y2); auto. eapply init_stays; eauto. }
  destruct (oh_init y H I') as [P1 P2]. unfold phased_gen. destruct (y_pre y) as [b|]; [|tauto].
  pose proof Hg as [Sg Pg]. destruct (oh_phase y H) as [Q|[Q|Q]]; rewrite Q; [tauto| |]; destruct b.
  - apply pre_inf; auto.
  - apply post_inf; auto.
  - rewrite (mneg_mul_l D D D) by auto with mat. apply inf_neg; [eauto with mat|]. apply pre_inf; auto.
  - rewrite (mneg_mul_r D D D) by auto with mat. apply inf_neg; [eauto with mat|]. apply post_inf; auto.
Qed.
End Hist.
