(** [init_pulse] of a usable CRAB generator, in closed form. *)
From Coq Require Import Reals Lra String.
From RecordUpdate Require Import RecordUpdate.
From Verif.Model Require Import Str Base Float PulseGen OptVars Crab.
From Verif.Lib Require Import Lists.
From Verif.Spec Require Import Evolution Pulses Crabs.
From Verif.Proofs Require Import DynRun PulseFacts PulseShapes OptMore CrabFacts CrabMore.
Local Open Scope R_scope.
Set Bullet Behavior "Strict Subproofs".

(** The number of coefficients in force after [init_pulse num_coeffs]. *)
Definition coeffs_in_force (num_coeffs : option nat) (g : pgen) : nat :=
  match num_coeffs, p_ncoef g with
  | Some (S k), _ => S k
  | _, Some (S k) => S k
  | _, _ => match p_parent g with Some d => Nat.max 2 (pa_dim d - 1) | None => 4%nat end
  end.

Lemma init_coeffs_eq rnd nc0 g : let nc := coeffs_in_force nc0 g in
  exists c, init_coeffs rnd nc0 None g = Ok (g <| p_ncoef := Some nc |> <| p_nvars := (nc * p_nbasis g)%nat |> <| p_coeffs := Some c |>) /\
    shape nc (p_nbasis g) c /\
    (forall i j, (i < nc)%nat -> (j < p_nbasis g)%nat ->
       coeff c i j = if p_randc g then (2 * rnd (i * p_nbasis g + j)%nat - 1) * p_scale g else p_scale g).
Proof.
  intros nc. set (cc := fun i j => if p_randc g then (2 * rnd (i * p_nbasis g + j)%nat - 1) * p_scale g else 1 * p_scale g).
  exists (map (fun i => map (cc i) (range (p_nbasis g))) (range nc)). splits.
  - unfold nc, cc, init_coeffs, coeffs_in_force, estimate_num_coeffs, DEF_NUM_COEFFS. destruct g. cbn -[Nat.max range Rmult].
    destruct nc0 as [[|k]|]; [destruct p_ncoef as [[|q]|]| |destruct p_ncoef as [[|q]|]]; reflexivity.
  - split; [rewrite map_length; apply seq_length|]. apply Forall_forall. intros r Hr. apply in_map_iff in Hr.
    destruct Hr as (i & <- & _). rewrite map_length. apply seq_length.
  - intros i j Hi Hj. unfold coeff. rewrite (nth_indep _ [] (map (cc 0%nat) (range (p_nbasis g)))) by (rewrite map_length; unfold range; rewrite seq_length; auto).
    rewrite (map_nth (fun i => map (cc i) (range (p_nbasis g)))). unfold range. rewrite seq_nth by auto.
    rewrite (nth_indep _ 0 (cc (0 + i)%nat 0%nat)) by (rewrite map_length, seq_length; auto).
    rewrite map_nth, seq_nth by auto. cbn [plus]. unfold cc. destruct (p_randc g); lra.
Qed.

Lemma init_coeffs_given rnd nc0 v g : let nc := coeffs_in_force nc0 g in length v = (nc * p_nbasis g)%nat ->
  init_coeffs rnd nc0 (Some v) g = Ok (g <| p_ncoef := Some nc |> <| p_nvars := (nc * p_nbasis g)%nat |> <| p_coeffs := Some (rows nc (p_nbasis g) v) |>).
Proof.
  cbn zeta. intros L. unfold init_coeffs, set_coeffs. unfold coeffs_in_force, estimate_num_coeffs, DEF_NUM_COEFFS in *.
  destruct g. cbn -[Nat.max rows Nat.mul] in *.
  destruct nc0 as [[|k]|]; [destruct p_ncoef as [[|q]|]| |destruct p_ncoef as [[|q]|]]; cbn -[Nat.max rows Nat.mul] in *;
    unfold reshape; rewrite L, Nat.eqb_refl; reflexivity.
Qed.

Lemma init_guess_eq f g : action_of (p_action g) f -> init_guess g = Ok (g <| p_gfun := Some f |>).
Proof.
  intros (a & Ea & H). unfold init_guess. rewrite Ea.
  destruct (String.eqb_spec a ""); [subst; destruct f; discriminate|].
  destruct f; rewrite H; reflexivity.
Qed.

(** *** The extent of the guess pulse *)
Lemma fmaxn_F l : forall x, fold_left fmaxn (map F l) (F x) = F (fold_right Rmax x l).
Proof.
  intros x. rewrite <- fold_symmetric.
  - revert x. induction l as [|y l IH]; intros x; cbn [map fold_left]; auto.
    replace (fmaxn (F x) (F y)) with (F (Rmax x y)); [apply IH|].
    cbn. unfold Rltb, Rmax. destruct (Rlt_dec x y), (Rle_dec x y); auto; f_equal; lra.
  - intros. apply Rmax_assoc.
  - intros. apply Rmax_comm.
Qed.
Lemma fminn_F l : forall x, fold_left fminn (map F l) (F x) = F (fold_right Rmin x l).
Proof.
  intros x. rewrite <- fold_symmetric.
  - revert x. induction l as [|y l IH]; intros x; cbn [map fold_left]; auto.
    replace (fminn (F x) (F y)) with (F (Rmin x y)); [apply IH|].
    cbn. unfold Rltb, Rmin. destruct (Rlt_dec y x), (Rle_dec x y); auto; f_equal; lra.
  - intros. apply Rmin_assoc.
  - intros. apply Rmin_comm.
Qed.
Lemma fold_max_ge x l : x <= fold_right Rmax x l.
Proof. induction l; cbn; [lra|]. eapply Rle_trans; [exact IHl|apply Rmax_r]. Qed.
Lemma fold_min_le x l : fold_right Rmin x l <= x.
Proof. induction l; cbn; [lra|]. eapply Rle_trans; [apply Rmin_r|exact IHl]. Qed.

Lemma guess_scale_eq g guess : nums (p_guess g) guess -> match guess with Some [] => False | _ => True end ->
  guess_scale g = Ok (F (extent guess)).
Proof.
  unfold nums, guess_scale. intros -> H. destruct guess as [[|x l]|]; [contradiction| |reflexivity].
  cbn [option_map map npmax npmin]. rewrite fmaxn_F, fminn_F. cbn [bind]. unfold extent, at_. cbn [nth fold_right].
  rewrite (Rmax_right x), (Rmin_right x) by auto using fold_max_ge, fold_min_le.
  set (hi := fold_right Rmax x l). set (lo := fold_right Rmin x l).
  clearbody hi lo. clear. cbn [fsub fadd fopp fltb]. unfold Rltb, Rmax, Rminus.
  destruct (Rlt_dec (hi + - lo) hi), (Rle_dec (hi + - lo) hi); auto; do 2 f_equal; lra.
Qed.

(** *** The bounds *)
Lemma bscale_all u l : / 2 * (u + - l) = (u - l) / 2. Proof. lra. Qed.

Lemma init_bounds_eq nc g guess : ordered (p_lb g) (p_ub g) -> tame (p_lb g) -> tame (p_ub g) ->
  nums (p_guess g) guess -> match guess with Some [] => False | _ => True end ->
  exists cd bm bs m s, init_bounds nc g = Ok (g <| p_cond := cd |> <| p_bmean := bm |> <| p_bscale := bs |>) /\
    (cd <> None -> bm = F m /\ bs = F s) /\
    forall g', p_cond g' = cd -> forall y,
      bound_map g' m s y = squash (number (p_lb g)) (number (p_ub g)) (p_scale g * INR nc + extent guess) y.
Proof.
  intros O Tl Tu Hg Hn. pose proof (guess_scale_eq g guess Hg Hn) as Es. unfold init_bounds.
  destruct (p_lb g) as [|[l| | |]|] eqn:El; try contradiction; destruct (p_ub g) as [|[u| | |]|] eqn:Eu; try contradiction.
  - exists None, (p_bmean g), (p_bscale g), 0, 0. splits; [|congruence|].
    + destruct g; reflexivity.
    + intros g' E y. unfold bound_map. rewrite E. reflexivity.
  - cbn [fltb]. unfold Rltb. destruct (Rlt_dec 0 u) as [P|P].
    + exists (Some BscGt), (F 0), (F u), 0, u. splits; [destruct g; reflexivity|auto|].
      intros g' E y. unfold bound_map. rewrite E. cbn. destruct (Rlt_dec 0 u); [|contradiction].
        destruct (Rlt_dec 0 y); auto. lra.
    + rewrite Es. cbn [bind fadd fabs fopp]. set (s := p_scale g * INR nc + extent guess).
      exists (Some BscGt), (F (- Rabs s + u)), (F s), (- Rabs s + u), s. splits; [destruct g; reflexivity|auto|].
      intros g' E y. unfold bound_map. rewrite E. cbn. destruct (Rlt_dec 0 u); [contradiction|].
        replace (- Rabs s + u) with (u - Rabs s) by lra. destruct (Rlt_dec _ y); auto. lra.
  - cbn [fltb]. unfold Rltb. destruct (Rlt_dec l 0) as [P|P].
    + exists (Some BscLt), (F 0), (F (Rabs l)), 0, (Rabs l). splits; [destruct g; reflexivity|auto|].
      intros g' E y. unfold bound_map. rewrite E. cbn. destruct (Rlt_dec l 0); [|contradiction].
        rewrite Rabs_left by auto. destruct (Rlt_dec y 0); auto. lra.
    + rewrite Es. cbn [bind fadd fabs fopp]. set (s := p_scale g * INR nc + extent guess).
      exists (Some BscLt), (F (Rabs s + l)), (F s), (Rabs s + l), s. splits; [destruct g; reflexivity|auto|].
      intros g' E y. unfold bound_map. rewrite E. cbn. destruct (Rlt_dec l 0); [contradiction|].
        replace (Rabs s + l) with (l + Rabs s) by lra. destruct (Rlt_dec y _); auto. lra.
  - cbn [fadd fsub fopp fmul]. exists (Some BscAll), (F (/ 2 * (u + l))), (F (/ 2 * (u + - l))), (/ 2 * (u + l)), (/ 2 * (u + - l)). splits; [destruct g; reflexivity|auto|].
    intros g' E y. unfold bound_map. rewrite E. cbn. lra.
Qed.

Definition harmonic (T : R) (i : nat) : R := 2 * PI / T * INR (i + 1).

Lemma init_freqs_eq rnd nc g : p_T g <> 0 ->
  exists fs, init_freqs rnd nc g = Ok (g <| p_freqs := Some fs |>) /\ length fs = nc /\
    forall i, (i < nc)%nat -> at_ fs i = harmonic (p_T g) i + (if p_randf g then rnd (nc * p_nbasis g + i)%nat - / 2 else 0).
Proof.
  intros HT. unfold init_freqs, pydiv. destruct (Req_EM_T (p_T g) 0); [contradiction|]. cbn [bind].
  eexists. splits; [reflexivity|rewrite map_length; apply seq_length|].
  intros i Hi. unfold range. rewrite at_map_seq; auto.
Qed.

Lemma nb_number b : is_lb b \/ is_ub b -> number (nb b) = number b.
Proof. intros [H|H]; destruct b as [|[]|]; cbn in *; auto. Qed.
Lemma nb_tame_lb b : is_lb b -> tame (nb b).
Proof. destruct b as [|[]|]; cbn; auto; contradiction. Qed.
Lemma nb_tame_ub b : is_ub b -> tame (nb b).
Proof. destruct b as [|[]|]; cbn; auto; contradiction. Qed.

Record initialised (g : pgen) (rnd : nat -> R) (nc : nat) guess ramp f (g1 : pgen) (t : list R) (m s : R) : Prop := {
  in_setup : set_up (p_n g) nc g1 t guess ramp f m s;
  in_time : forall k, (k < p_n g)%nat -> at_ t k = start_of (slots g) k;
  in_nbasis : p_nbasis g1 = p_nbasis g;
  in_fix : p_fix g1 = p_fix g;
  in_freqs : exists fs, p_freqs g1 = Some fs /\ forall i, (i < nc)%nat ->
    at_ fs i = harmonic (p_T g) i + (if p_randf g then rnd (nc * p_nbasis g + i)%nat - / 2 else 0);
  in_bounds : forall y, bound_map g1 m s y = squash (number (p_lb g)) (number (p_ub g)) (p_scale g * INR nc + extent guess) y;
}.

Definition start_coeffs (rnd : nat -> R) (nc : nat) (v : option (list R)) (g : pgen) (c : list (list R)) : Prop :=
  match v with
  | Some v => c = rows nc (p_nbasis g) v
  | None => forall i j, (i < nc)%nat -> (j < p_nbasis g)%nat ->
       coeff c i j = if p_randc g then (2 * rnd (i * p_nbasis g + j)%nat - 1) * p_scale g else p_scale g
  end.

(** The attributes that matter here, side by side. *)
Definition view (g : pgen) := (p_cls g, p_ready g, p_n g, p_T g, p_scale g, p_ncoef g, p_nvars g, p_nbasis g, p_fix g, p_randf g, p_freqs g, p_time g, p_lb g, p_ub g, p_guess g, p_action g, p_gfun g, p_ramp g, p_cond g, p_bmean g, p_bscale g, p_coeffs g, p_parent g, p_randc g).
Ltac viewed E := unfold view in E; injection E; clear E; intros.

Lemma view1 g tau tm rd lb ub :
  view (g <| p_tau := tau |> <| p_time := tm |> <| p_ready := rd |> <| p_lb := lb |> <| p_ub := ub |>) =
  (p_cls g, rd, p_n g, p_T g, p_scale g, p_ncoef g, p_nvars g, p_nbasis g, p_fix g, p_randf g, p_freqs g, tm, lb, ub, p_guess g, p_action g, p_gfun g, p_ramp g, p_cond g, p_bmean g, p_bscale g, p_coeffs g, p_parent g, p_randc g).
Proof. destruct g; reflexivity. Qed.
Lemma view2 g nc nv c : view (g <| p_ncoef := nc |> <| p_nvars := nv |> <| p_coeffs := c |>) =
  (p_cls g, p_ready g, p_n g, p_T g, p_scale g, nc, nv, p_nbasis g, p_fix g, p_randf g, p_freqs g, p_time g, p_lb g, p_ub g, p_guess g, p_action g, p_gfun g, p_ramp g, p_cond g, p_bmean g, p_bscale g, c, p_parent g, p_randc g).
Proof. destruct g; reflexivity. Qed.
Lemma view3 g gf : view (g <| p_gfun := gf |>) = (p_cls g, p_ready g, p_n g, p_T g, p_scale g, p_ncoef g, p_nvars g, p_nbasis g, p_fix g, p_randf g, p_freqs g, p_time g, p_lb g, p_ub g, p_guess g, p_action g, gf, p_ramp g, p_cond g, p_bmean g, p_bscale g, p_coeffs g, p_parent g, p_randc g).
Proof. destruct g; reflexivity. Qed.
Lemma view4 g cd bm bs : view (g <| p_cond := cd |> <| p_bmean := bm |> <| p_bscale := bs |>) =
  (p_cls g, p_ready g, p_n g, p_T g, p_scale g, p_ncoef g, p_nvars g, p_nbasis g, p_fix g, p_randf g, p_freqs g, p_time g, p_lb g, p_ub g, p_guess g, p_action g, p_gfun g, p_ramp g, cd, bm, bs, p_coeffs g, p_parent g, p_randc g).
Proof. destruct g; reflexivity. Qed.
Lemma view5 g fs : view (g <| p_freqs := fs |>) = (p_cls g, p_ready g, p_n g, p_T g, p_scale g, p_ncoef g, p_nvars g, p_nbasis g, p_fix g, p_randf g, fs, p_time g, p_lb g, p_ub g, p_guess g, p_action g, p_gfun g, p_ramp g, p_cond g, p_bmean g, p_bscale g, p_coeffs g, p_parent g, p_randc g).
Proof. destruct g; reflexivity. Qed.
Lemma gfun_twice g a b : g <| p_gfun := a |> <| p_gfun := b |> = g <| p_gfun := b |>.
Proof. destruct g; reflexivity. Qed.
Lemma gfun_same g a : p_gfun g = a -> g = g <| p_gfun := a |>.
Proof. destruct g; cbn; intros <-; reflexivity. Qed.

Lemma init_crab_ok rnd nc0 v g guess ramp f : prepared g guess ramp f ->
  let nc := coeffs_in_force nc0 g in
  match v with Some v => length v = (nc * p_nbasis g)%nat | None => True end ->
  exists g1 t m s c, init_crab rnd nc0 v g = Ok g1 /\ initialised g rnd nc guess ramp f g1 t m s /\
    p_coeffs g1 = Some c /\ shape nc (p_nbasis g) c /\ start_coeffs rnd nc v g c.
Proof.
  intros [U1 U2 U3 U4 U5 U6 U7 U8 U9 U10] nc Hv. unfold init_crab.
  destruct (init_base_ok g) as (tm & Eb & Et); auto.
  { intros _. unfold tau_or. destruct (p_tau g); auto. rewrite repeat_length; lia. }
  rewrite U4 in Et. destruct Et as (ts & Ets & ->). destruct (times_inv _ _ _ _ Ets) as (Lts & Nts).
  rewrite Eb. cbn [bind]. clear Eb.
  assert (NE : match guess with Some [] => False | _ => True end).
  { destruct guess as [[|]|]; auto. destruct U8 as [U8 _]. cbn in U8. lia. }
  pose proof (view1 g (Some (tau_or g)) (Some ts) true (nb (p_lb g)) (nb (p_ub g))) as V1.
  set (g1 := g <| p_tau := _ |> <| p_time := _ |> <| p_ready := _ |> <| p_lb := _ |> <| p_ub := _ |>) in *.
  clearbody g1. viewed V1.
  assert (Q1 : coeffs_in_force nc0 g1 = nc) by (unfold nc, coeffs_in_force; replace (p_ncoef g1) with (p_ncoef g) by congruence; replace (p_parent g1) with (p_parent g) by congruence; reflexivity).
  assert (Ec : exists c, 
     init_coeffs rnd nc0 v g1 = Ok (g1 <| p_ncoef := Some nc |> <| p_nvars := (nc * p_nbasis g)%nat |> <| p_coeffs := Some c |>) /\
     shape nc (p_nbasis g) c /\ start_coeffs rnd nc v g c).
  { assert (Q2 : p_nbasis g1 = p_nbasis g) by auto. assert (Q3 : p_randc g1 = p_randc g) by auto. assert (Q4 : p_scale g1 = p_scale g) by auto.
    destruct v as [v|].
    - pose proof (init_coeffs_given rnd nc0 v g1) as E. cbn zeta in E. rewrite Q1, Q2 in E.
      exists (rows nc (p_nbasis g) v). cbn zeta. splits; [apply E; auto|apply rows_shape; auto|reflexivity].
    - destruct (init_coeffs_eq rnd nc0 g1) as (c & E & S & V). rewrite Q1, Q2 in *. rewrite Q3, Q4 in V.
      exists c. splits; auto. }
  destruct Ec as (c & Ec & Sc & Vc). cbn zeta in Ec. rewrite Ec. cbn [bind]. clear Ec.
  pose proof (view2 g1 (Some nc) (nc * p_nbasis g)%nat (Some c)) as V2.
  set (g2 := g1 <| p_ncoef := _ |> <| p_nvars := _ |> <| p_coeffs := _ |>) in *. clearbody g2. viewed V2.
  assert (E3 : exists gf, match p_guess g2 with Some _ => init_guess (g2 <| p_gfun := None |>) | None => Ok g2 end = Ok (g2 <| p_gfun := gf |>) /\
     match guess with None => gf = None | Some l => length l = p_n g /\ gf = Some f end).
  { assert (Q : p_guess g2 = option_map (map F) guess) by (unfold nums in U7; congruence). rewrite Q.
    destruct guess as [l|]; cbn [option_map].
    - destruct U8 as [U8 U8']. exists (Some f). split; auto. rewrite init_guess_eq with (f := f).
      + rewrite gfun_twice. reflexivity.
      + replace (p_action (g2 <| p_gfun := None |>)) with (p_action g); [exact U8'|].
        transitivity (p_action g2); [congruence|]. destruct g2; reflexivity.
    - exists None. split; auto. f_equal. apply gfun_same. congruence. }
  destruct E3 as (gf & E3 & Hgf). rewrite E3. cbn [bind]. clear E3.
  pose proof (view3 g2 gf) as V3. set (g3 := g2 <| p_gfun := gf |>) in *. clearbody g3. viewed V3.
  assert (Q35 : ncoef_of g3 = nc) by (unfold ncoef_of; replace (p_ncoef g3) with (Some nc) by congruence; auto).
  rewrite Q35. pose proof U6 as (Ol & Ou & _).
  assert (Q31 : p_lb g3 = nb (p_lb g)) by congruence. assert (Q32 : p_ub g3 = nb (p_ub g)) by congruence.
  assert (Q33 : p_guess g3 = p_guess g) by congruence. assert (Q34 : p_scale g3 = p_scale g) by congruence.
  destruct (init_bounds_eq nc g3 guess) as (cd & bm & bs & m & s & E4 & B1 & B2); try (rewrite ?Q31, ?Q32, ?Q33; auto using nb_ord, nb_tame_lb, nb_tame_ub).
  rewrite E4. cbn [bind]. clear E4. pose proof (view4 g3 cd bm bs) as V4.
  set (g4 := g3 <| p_cond := _ |> <| p_bmean := _ |> <| p_bscale := _ |>) in *. clearbody g4. viewed V4.
  assert (Q44 : ncoef_of g4 = nc) by (unfold ncoef_of; replace (p_ncoef g4) with (Some nc) by congruence; auto).
  assert (Q41 : p_T g4 = p_T g) by congruence. assert (Q42 : p_randf g4 = p_randf g) by congruence.
  assert (Q43 : p_nbasis g4 = p_nbasis g) by congruence.
  rewrite Q44. destruct (init_freqs_eq rnd nc g4) as (fs & E5 & Lf & Nf); [congruence|]. rewrite E5. clear E5. rewrite Q41, Q42, Q43 in Nf.
  pose proof (view5 g4 (Some fs)) as V5. set (g5 := g4 <| p_freqs := _ |>) in *. clearbody g5. viewed V5.
  exists g5, ts, m, s, c. splits; auto; try congruence.
  constructor; try congruence.
  - constructor; try congruence.
    + exists fs. split; auto. 
    + destruct guess; [|congruence]. destruct Hgf; split; congruence.
    + intros Hc. destruct B1; [congruence|]. split; congruence.
  - intros k Hk. specialize (Nts k Hk). unfold at_. rewrite (nth_error_nth _ _ _ Nts).
    unfold slots. unfold tau_or. destruct (p_tau g); [lra|]. rewrite Rplus_0_l. do 2 f_equal. unfold Rdiv. ring.
  - exists fs. split; auto.
  - intros y. rewrite (B2 g5) by congruence. rewrite Q31, Q32, Q34, !nb_number by auto. reflexivity.
Qed.
