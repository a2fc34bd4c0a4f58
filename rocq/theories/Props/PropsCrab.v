(** Properties C28, C30, C36 and C57: the CRAB pulse generators, and how the
    CRAB optimisers share their variables among them.
    [usable], [in_use], [squash], [fourier_sum], [gives], ... are defined in
    Spec/Crabs.v. *)
From Coq Require Import Reals Lra String.
From RecordUpdate Require Import RecordUpdate.
From Verif.Model Require Import Str Base Float PulseGen Dyn OptVars OptRun Crab.
From Verif.Lib Require Import Lists.
From Verif.Spec Require Import Evolution Pulses Crabs Runs.
From Verif.Proofs Require Import DynRun PulseFacts PulseShapes OptMore CrabFacts CrabMore CrabInit CrabCode CrabParams.
Local Open Scope R_scope.
Set Bullet Behavior "Strict Subproofs".

(** ** C28 *)
(** [lb] and [ub] are the bounds when the generator is initialised.  Whatever
    is done with it afterwards (coefficients, guess, ramping, other
    attributes, further initialisations), every pulse is finite and within
    them. *)
Theorem C28_within_bounds rnd nc v g g1 ops g2 fuel rnd' ga g3 p :
  p_cls g = CCrab -> ordered (p_lb g) (p_ub g) -> finite_list (p_guess g) -> finite_list (p_ramp g) ->
  init_pulse rnd (ICrab nc v) g = Ok g1 ->
  Forall pop_fine ops -> prun ops g1 = Ok g2 ->
  gen_pulse fuel rnd' ga g2 = Ok (g3, p) ->
  Forall (fun a => fin a /\ within (p_lb g) (p_ub g) a) p.
Proof.
  intros C O G R H Ho Hr Hp. unfold init_pulse in H. rewrite C in H.
  destruct (init_crab_enforces _ _ _ _ _ _ _ O (or_introl (conj eq_refl eq_refl)) G H) as (Q1 & Q2 & Q3).
  assert (HB : holds_bounds (p_lb g) (p_ub g) g1).
  { constructor; auto; try congruence. rewrite (init_crab_cls _ _ _ _ _ H); auto. }
  pose proof (hb_run _ _ _ Ho _ _ HB Hr) as HB2. unfold gen_pulse in Hp. rewrite (hb_cls _ _ _ HB2) in Hp.
  destruct ga; try discriminate; eapply hb_gen; eauto.
Qed.

(** The same when gen_pulse does the initialisation itself. *)
Theorem C28_uninitialised fuel rnd ga g g1 p :
  p_cls g = CCrab -> p_ready g = false -> ordered (p_lb g) (p_ub g) -> finite_list (p_guess g) -> finite_list (p_ramp g) ->
  gen_pulse fuel rnd ga g = Ok (g1, p) ->
  Forall (fun a => fin a /\ within (p_lb g) (p_ub g) a) p.
Proof.
  intros C N O G R H. unfold gen_pulse in H. rewrite C in H.
  assert (E : exists c, gen_crab rnd c g = Ok (g1, p)) by (destruct ga; try discriminate; eauto). clear H. destruct E as [c E].
  destruct (gen_crab_inv _ _ _ _ _ E) as (g0 & raw & E0 & E1 & -> & Fr).
  assert (Q : p_cls g0 = CCrab /\ p_ready g0 = false /\ p_lb g0 = p_lb g /\ p_ub g0 = p_ub g /\ p_guess g0 = p_guess g /\ p_ramp g0 = p_ramp g)
    by (destruct E0 as [->|[c' ->]]; [auto 10|destruct g; cbn in *; auto 10]).
  destruct Q as (Q1 & Q2 & Q3 & Q4 & Q5 & Q6). unfold ensure in E1. rewrite Q2 in E1. unfold init_pulse in E1. rewrite Q1 in E1.
  rewrite <- Q5 in G. destruct (init_crab_enforces _ _ _ _ _ _ _ O (or_introl (conj Q3 Q4)) G E1) as (H1 & H2 & H3).
  apply enforced; auto. apply Fr; congruence.
Qed.

Lemma bounded_prepared g f lb ub : prepared g None None f -> ordered lb ub ->
  let h := setattr (setattr g (ALb lb)) (AUb ub) in
  prepared h None None f /\ p_lb h = lb /\ p_ub h = ub /\ p_nbasis h = p_nbasis g /\ p_fix h = p_fix g /\
  p_ncoef h = p_ncoef g /\ p_n h = p_n g /\ p_guess h = p_guess g /\ p_ramp h = p_ramp g /\ p_ready h = p_ready g.
Proof. intros [] O. destruct g. cbn in *. splits; auto. constructor; cbn; auto. Qed.

Definition crab_bounded : pgen :=
  setattr (setattr (new_crab None (Some 2%nat) [] true) (ALb (BVal (F (-1))))) (AUb (BVal (F 1))).
Lemma crab_bounded_facts : p_cls crab_bounded = CCrab /\ ordered (p_lb crab_bounded) (p_ub crab_bounded) /\ p_ready crab_bounded = false /\
  p_guess crab_bounded = None /\ p_ramp crab_bounded = None /\ prepared crab_bounded None None PulseGen.Add /\ p_nbasis crab_bounded = 2%nat /\
  p_fix crab_bounded = true /\ p_ncoef crab_bounded = Some 2%nat /\ p_n crab_bounded = 100%nat.
Proof.
  assert (O : ordered (BVal (F (-1))) (BVal (F 1))) by (unfold ordered; cbn; splits; auto; lra).
  destruct (new_usable None (Some 2%nat) PulseGen.Add true I) as [P _]. unfold crab_bounded.
  set (g := new_crab None (Some 2%nat) [] true) in *.
  assert (V : p_nbasis g = 2%nat /\ p_fix g = true /\ p_ncoef g = Some 2%nat /\ p_n g = 100%nat /\ p_guess g = None /\
    p_ramp g = None /\ p_ready g = false) by (unfold g; vm_compute; auto 10).
  clearbody g. destruct V as (V1 & V2 & V3 & V4 & V5 & V6 & V7).
  destruct (bounded_prepared g _ _ _ P O) as (B1 & B2 & B3 & B4 & B5 & B6 & B7 & B8 & B9 & B10).
  set (h := setattr _ _) in *. clearbody h. splits; try congruence. apply B1.
Qed.
Example C28_case : exists rnd g1 g2 p, init_pulse rnd (ICrab None None) crab_bounded = Ok g1 /\
  prun [PSetVars [1; -5; 7; 3]] g1 = Ok g2 /\ gen_pulse 0 rnd GNone g2 = Ok (g2, p) /\ length p = 100%nat.
Proof.
  destruct crab_bounded_facts as (C & O & _ & _ & _ & P & B & X & N & L).
  set (rnd := fun _ : nat => 0). destruct (init_crab_ok rnd None None _ _ _ _ P I) as (g1 & t & m & s & c & E & _).
  assert (E' : init_pulse rnd (ICrab None None) crab_bounded = Ok g1) by (unfold init_pulse; rewrite C; exact E).
  assert (Hu : in_use 100 g1).
  { eapply iu_init; [split; [exact P|unfold enough_columns; rewrite X, B; auto]|exact L|exact E']. }
  assert (Hr := in_use_ready _ _ Hu).
  destruct (init_crab_ok rnd None None _ _ _ _ P I) as (g1' & t' & m' & s' & c' & E2 & [I1 _ I3 _ _ _] & _).
  rewrite E in E2. injection E2 as <-. pose proof (su_vars _ _ _ _ _ _ _ _ _ I1) as V. rewrite I3, B in V.
  unfold coeffs_in_force in V. rewrite N in V.
  destruct (ready_gen_pulse 100 g1 [1; -5; 7; 3] 0 rnd Hr) as (F1 & F2 & F3 & F4); [rewrite V; reflexivity|].
  exists rnd, g1. eexists. eexists. split; [exact E'|]. split; [cbn [prun pstep]; rewrite F1; reflexivity|].
  split; [exact F3|]. rewrite map_length. exact F4.
Qed.

(** ** C57 *)
(** After init_pulse, for whatever coefficients are set, the pulse is the
    Fourier sum, with the guess and ramping pulses applied, squashed into the
    bounds; the frequencies are the harmonics of the pulse duration, each
    shifted by at most 1/2, or are the last coefficients if optimised. *)
Theorem C57_formula rnd nc0 g guess ramp f v fuel rnd' :
  draws rnd -> usable g guess ramp f ->
  exists g1 nc w, init_pulse rnd (ICrab nc0 None) g = Ok g1 /\ p_nvars g1 = (nc * p_nbasis g)%nat /\
    (p_fix g = true -> forall c i, (i < nc)%nat ->
       if p_randf g then Rabs (w c i - 2 * PI / p_T g * INR (i + 1)) <= / 2 else w c i = 2 * PI / p_T g * INR (i + 1)) /\
    (p_fix g = false -> forall c i, w c i = coeff c i 2) /\
    (length v = p_nvars g1 -> exists g2, set_coeffs v g1 = Ok g2 /\
       let c := rows nc (p_nbasis g) v in
       gen_pulse fuel rnd' GNone g2 = Ok (g2, map F (map (fun k =>
         squash (number (p_lb g)) (number (p_ub g)) (p_scale g * INR nc + extent guess)
           (with_ramp ramp k (with_guess guess f k (fourier_sum c (w c) (start_of (slots g) k))))) (seq 0 (p_n g))))).
Proof.
  intros Hd HU. pose proof HU as [HP HB]. destruct (init_crab_ok rnd nc0 None g guess ramp f HP I) as (g1 & t & m & s & c & E & [I1 I2 I3 I4 I5 I6] & Ec & Sc & _).
  set (nc := coeffs_in_force nc0 g) in *.
  assert (E' : init_pulse rnd (ICrab nc0 None) g = Ok g1) by (unfold init_pulse; rewrite (us_cls _ _ _ _ HP); exact E).
  exists g1, nc, (fun c i => freq_of g1 c i). splits; auto.
  - rewrite (su_vars _ _ _ _ _ _ _ _ _ I1), I3. auto.
  - intros Hf c0 i Hi. destruct I5 as (fs & Ef & Nf). unfold freq_of. rewrite I4, Hf, Ef, (Nf i Hi). unfold harmonic.
    destruct (p_randf g); [|lra]. pose proof (Hd (nc * p_nbasis g + i)%nat). apply Rabs_le. lra.
  - intros Hf c0 i. unfold freq_of. rewrite I4, Hf. auto.
  - intros Hv. assert (Hu : in_use (p_n g) g1) by (eapply iu_init; eauto). apply in_use_ready in Hu.
    destruct (ready_gen_pulse (p_n g) g1 v fuel rnd' Hu Hv) as (F1 & F2 & F3 & F4). eexists. split; [exact F1|].
    cbn zeta. rewrite F3. do 2 f_equal. unfold crab_pulse. rewrite (su_n _ _ _ _ _ _ _ _ _ I1). f_equal.
    assert (Q : ncoef_of g1 = nc) by (unfold ncoef_of; rewrite (su_nc _ _ _ _ _ _ _ _ _ I1); auto). rewrite Q, I3.
    apply map_seq_ext. intros k Hk. unfold crab_amp. rewrite <- I6.
    destruct I1 as [_ _ _ _ _ _ U8 _ U10 U11 U12 _ U14]. unfold the_time. rewrite U8.
    rewrite (nums_of_eq _ _ U10), (nums_of_eq _ _ U12), (I2 k Hk).
    rewrite (bound_map_ext g1 m s (num_of (p_bmean g1)) (num_of (p_bscale g1)))
      by (intros Hn; destruct (U14 Hn) as [-> ->]; auto).
    f_equal. f_equal. destruct guess; [|reflexivity]. destruct U11 as [_ U11]. unfold the_fun. rewrite U11. auto.
Qed.

(** The coefficients to start with: all equal to the scaling, or random ones
    of at most that size. *)
Theorem C57_start rnd nc0 g guess ramp f g1 : draws rnd -> usable g guess ramp f ->
  init_pulse rnd (ICrab nc0 None) g = Ok g1 ->
  exists nc c, p_coeffs g1 = Some c /\ shape nc (p_nbasis g) c /\
    forall i j, (i < nc)%nat -> (j < p_nbasis g)%nat ->
      if p_randc g then Rabs (coeff c i j) <= Rabs (p_scale g) else coeff c i j = p_scale g.
Proof.
  intros Hd HU H. pose proof HU as [HP HB]. destruct (init_crab_ok rnd nc0 None g guess ramp f HP I) as (g2 & t & m & s & c & E & _ & Ec & Sc & V).
  unfold init_pulse in H. rewrite (us_cls _ _ _ _ HP) in H. rewrite E in H. injection H as <-.
  exists (coeffs_in_force nc0 g), c. splits; auto. intros i j Hi Hj. rewrite (V i j Hi Hj).
  destruct (p_randc g); auto. rewrite Rabs_mult. pose proof (Hd (i * p_nbasis g + j)%nat).
  assert (Rabs (2 * rnd (i * p_nbasis g + j)%nat - 1) <= 1) by (apply Rabs_le; lra). pose proof (Rabs_pos (p_scale g)). nra.
Qed.

Example C57_case : draws (fun _ => / 3) /\ usable (new_crab None (Some 3%nat) [] false) None None PulseGen.Add /\
  usable crab_bounded None None PulseGen.Add.
Proof.
  splits.
  - intros i. lra.
  - apply new_usable. exact I.
  - destruct crab_bounded_facts as (_ & _ & _ & _ & _ & P & B & X & _). split; auto. unfold enough_columns. rewrite B, X. auto.
Qed.

(** ** C30 *)
Lemma part_fits gens x j g : length x = list_sum (map p_nvars gens) -> nth_error gens j = Some g ->
  length (part x (before gens j) (p_nvars g)) = p_nvars g.
Proof.
  intros Hx Eg. assert (B : (before gens j + p_nvars g <= length x)%nat).
  { rewrite Hx. unfold before. clear Hx. revert j Eg. induction gens as [|g0 l IH]; intros [|j] Hj; try discriminate.
    - cbn in *. injection Hj as ->. lia.
    - cbn [firstn map list_sum fold_right] in *. apply IH in Hj. unfold list_sum in *. lia. }
  unfold part. rewrite firstn_length, skipn_length. lia.
Qed.

Section Partition.
Context {A : Alg} (d : dyn A) (n m : nat) (gens : list pgen).
Hypothesis Hn : n_ts d = n.
Hypothesis Hc : has_ctrls m d.
Hypothesis Hm : length gens = m.
Hypothesis Hu : Forall (in_use n) gens.

Lemma all_ready : Forall (ready_gen n) gens.
Proof. eapply Forall_impl; [|exact Hu]. apply in_use_ready. Qed.

(** The vector is the concatenation of what the generators contribute, and as
    long as the sum of their numbers of variables. *)
Theorem C30_concatenation : exists vs, map_res get_vars_of gens = Ok vs /\
  crab_get_vars d (PgList gens) = Ok (concat vs) /\
  Forall2 (fun g v => length v = p_nvars g) gens vs /\
  length (concat vs) = list_sum (map p_nvars gens).
Proof.
  destruct (load_self gens n all_ready) as (vs & E & L & _ & F2). exists vs. unfold crab_get_vars. rewrite E. splits; auto.
  clear - F2. induction F2 as [|? ? ? ? [? ?]]; constructor; auto.
Qed.

(** Any vector of that length is split without loss: generator [j] gets the
    part that starts where those before it end, the amplitudes of control [j]
    are the pulse it makes with it, and reading the vector back returns it. *)
Theorem C30_partition rnd x : length x = list_sum (map p_nvars gens) ->
  exists gens' a, crab_to_amps rnd x d (PgList gens) = Ok (PgList gens', a) /\ shape n m a /\
    crab_get_vars d (PgList gens') = Ok x /\ length gens' = m /\ map p_nvars gens' = map p_nvars gens /\
    Forall (in_use n) gens' /\
    forall j g', nth_error gens' j = Some g' ->
      get_vars_of g' = Ok (part x (before gens j) (p_nvars g')) /\
      exists p, (forall fuel rnd', gen_pulse fuel rnd' GNone g' = Ok (g', map F p)) /\
        length p = n /\ forall k, (k < n)%nat -> nth_error (nth k a []) j = Some (at_ p k).
Proof.
  intros Hx. destruct Hc as (d' & Hc'). unfold crab_to_amps. rewrite Hc'. cbn [bind]. rewrite Hm, Nat.eqb_refl, Hn.
  destruct (columns_ok rnd n gens all_ready x Hx) as (E & R1 & R2). rewrite E. cbn [bind].
  destruct (load_facts gens x) as (L1 & L2 & L3). eexists. eexists. split; [reflexivity|].
  destruct (load_vars gens n all_ready x Hx) as (vs & Ev & Cv). splits; auto.
  - apply row_shape. congruence.
  - unfold crab_get_vars. rewrite Ev. cbn [bind]. congruence.
  - congruence.
  - apply Forall_forall. intros g' Hg'. apply In_nth_error in Hg'. destruct Hg' as [j Hj].
    destruct (load_nth gens x j g' Hj) as (g & Eg & -> & _). pose proof (nth_error_In _ _ Eg) as Ig.
    rewrite (Forall_forall _ _) in Hu. specialize (Hu g Ig).
    eapply iu_set with (v := part x (before gens j) (p_nvars g)); [exact Hu|].
    pose proof (in_use_ready _ _ Hu) as Rg. pose proof (part_fits _ _ _ _ Hx Eg) as LP.
    destruct (ready_gen_pulse n g _ 0 rnd Rg LP) as (F1 & _). exact F1.
  - intros j g' Hj. destruct (load_nth gens x j g' Hj) as (g & Eg & -> & Ep).
    pose proof (nth_error_In _ _ Eg) as Ig. rewrite (Forall_forall _ _) in Hu. pose proof (in_use_ready _ _ (Hu g Ig)) as Rg.
    set (v := part x (before gens j) (p_nvars g)) in *.
    assert (Lv : length v = p_nvars g) by (apply part_fits; auto).
    destruct (ready_gen_pulse n g v 0 rnd Rg Lv) as (F1 & F2 & F3 & F4). split.
    + replace (p_nvars (g <| p_coeffs := _ |>)) with (p_nvars g) by (destruct g; reflexivity). apply (loaded_vars n); auto.
    + exists (crab_pulse g v). splits; auto.
      * intros fuel rnd'. destruct (ready_gen_pulse n g v fuel rnd' Rg Lv) as (_ & _ & F5 & _). exact F5.
      * intros k Hk. rewrite (nth_indep _ [] (row_of (pulses gens x) 0%nat)) by (rewrite map_length; unfold range; rewrite seq_length; auto).
        rewrite map_nth. unfold range. rewrite seq_nth by auto. unfold row_of. rewrite nth_error_map, Ep. reflexivity.
Qed.

(** Reading the variables and setting them again changes no generator. *)
Theorem C30_round_trip rnd x : crab_get_vars d (PgList gens) = Ok x ->
  exists a, crab_to_amps rnd x d (PgList gens) = Ok (PgList gens, a).
Proof.
  intros H. destruct (load_self gens n all_ready) as (vs & E & L & S & _). unfold crab_get_vars in H. rewrite E in H. cbn [bind] in H.
  assert (x = concat vs) by congruence. subst x. destruct Hc as (d' & Hc'). unfold crab_to_amps. rewrite Hc'. cbn [bind].
  rewrite Hm, Nat.eqb_refl, Hn. destruct (columns_ok rnd n gens all_ready (concat vs) L) as (E2 & _). rewrite E2, S. cbn [bind]. eauto.
Qed.

(** A vector that is too short is refused. *)
Theorem C30_short rnd x : (length x < list_sum (map p_nvars gens))%nat ->
  crab_to_amps rnd x d (PgList gens) = Raise ValueError.
Proof.
  intros H. destruct Hc as (d' & Hc'). unfold crab_to_amps. rewrite Hc'. cbn [bind]. rewrite Hm, Nat.eqb_refl, Hn.
  rewrite (columns_short rnd n gens all_ready x H). reflexivity.
Qed.
End Partition.

(** Generators set up for another number of timeslots are refused: no pulse is
    cut or filled up to fit. *)
Theorem C30_other_slots {A : Alg} (d : dyn A) n n' m g gens rnd x :
  n_ts d = n -> has_ctrls m d -> length (g :: gens) = m -> in_use n' g -> n' <> n -> n' <> 1%nat ->
  (p_nvars g <= length x)%nat -> crab_to_amps rnd x d (PgList (g :: gens)) = Raise ValueError.
Proof.
  intros Hn (d' & Hc) Hm Hg N1 N2 L. unfold crab_to_amps. rewrite Hc. cbn [bind]. rewrite Hm, Nat.eqb_refl, Hn.
  rewrite (columns_other rnd n n' g gens x (in_use_ready _ _ Hg) N1 N2 L). reflexivity.
Qed.

Example C30_case : exists gens, length gens = 2%nat /\ Forall (in_use 100) gens /\ map p_nvars gens = [4; 9]%nat.
Proof.
  destruct crab_bounded_facts as (C & O & _ & _ & _ & P & B & X & N & L).
  set (rnd := fun _ : nat => 0). destruct (init_crab_ok rnd None None _ _ _ _ P I) as (g1 & t & m & s & c & E & [I1 _ I3 _ _ _] & _).
  pose proof (su_vars _ _ _ _ _ _ _ _ _ I1) as V. rewrite I3, B in V. unfold coeffs_in_force in V. rewrite N in V.
  destruct (new_usable None (Some 3%nat) PulseGen.Add false I) as [P' B']. set (h := new_crab None (Some 3%nat) [] false) in *.
  assert (F : p_nbasis h = 3%nat /\ p_ncoef h = Some 3%nat /\ p_n h = 100%nat) by (unfold h; vm_compute; auto).
  clearbody h. destruct F as (F1 & F2 & F3).
  destruct (init_crab_ok rnd None None _ _ _ _ P' I) as (h1 & t' & m' & s' & c' & E' & [J1 _ J3 _ _ _] & _).
  pose proof (su_vars _ _ _ _ _ _ _ _ _ J1) as V'. rewrite J3, F1 in V'. unfold coeffs_in_force in V'. rewrite F2 in V'.
  exists [g1; h1]. splits; auto.
  - constructor; [|constructor; [|constructor]].
    + eapply iu_init with (rnd := rnd) (g := crab_bounded) (nc := None) (v := None); [split; [exact P|]|exact L|].
      * unfold enough_columns. rewrite X, B. auto.
      * unfold init_pulse. rewrite C. exact E.
    + eapply iu_init with (rnd := rnd) (g := h) (nc := None) (v := None); [split; [exact P'|exact B']|exact F3|].
      unfold init_pulse. rewrite (us_cls _ _ _ _ P'). exact E'.
  - cbn. rewrite V, V'. reflexivity.
Qed.

(** CRAB's variables are a [coding] in the sense of Spec/Runs.v, so everything
    Props/PropsOptimise.v proves of a run (C19-C23, C26) holds for CRAB. *)
Theorem C30_coding {A : Alg} n m rnd gens : Forall (in_use n) gens -> length gens = m ->
  coding n m (crab_to_amps (A:=A) rnd) crab_get_vars crab_gens_ok
    (fun x => length x = list_sum (map p_nvars gens)) (crab_decode n gens) (crab_okg n gens) /\
  crab_okg n gens (PgList gens) /\
  forall x, length x = list_sum (map p_nvars gens) -> forall d, n_ts d = n -> has_ctrls m d ->
    exists gens', crab_to_amps (A:=A) rnd x d (PgList gens) = Ok (PgList gens', crab_decode n gens x).
Proof.
  intros Hu Hm. assert (Hr : Forall (ready_gen n) gens) by (eapply Forall_impl; [|exact Hu]; apply in_use_ready). splits.
  - apply crab_coding; auto.
  - apply okg_start; auto.
  - intros x Hx d Hn (d' & Hc). unfold crab_to_amps. rewrite Hc. cbn [bind]. rewrite Hm, Nat.eqb_refl, Hn.
    destruct (columns_ok rnd n gens Hr x Hx) as (E & _). rewrite E. cbn [bind]. eauto.
Qed.

(** ** C36 *)
(** A value given through the parameter dictionary holds after construction,
    for every attribute but three (see below). *)
Theorem C36_params_partial d nc ps fix_freqs a : gives ps a ->
  name_of a <> "fix_freqs"%string -> name_of a <> "randomize_freqs"%string ->
  (fix_freqs = false -> name_of a <> "num_basis_funcs"%string) ->
  holds a (new_crab d nc ps fix_freqs).
Proof. apply new_crab_holds. Qed.

Example C36_params_case : gives [ANumCoeffs (Some 4%nat); ARandCoeffs true; ANumCoeffs (Some 7%nat)] (ANumCoeffs (Some 7%nat)) /\
  p_ncoef (new_crab None None [ANumCoeffs (Some 4%nat); ARandCoeffs true; ANumCoeffs (Some 7%nat)] true) = Some 7%nat.
Proof.
  split; [|reflexivity]. exists [ANumCoeffs (Some 4%nat); ARandCoeffs true], []. split; [reflexivity|constructor].
Qed.

(** fix_freqs and randomize_freqs in the dictionary are overwritten. *)
Theorem C36_freqs_refuted : 
  (exists d nc ps, gives ps (AFixFreqs false) /\ ~ holds (AFixFreqs false) (new_crab d nc ps true)) /\
  (exists d nc ps, gives ps (ARandFreqs false) /\ ~ holds (ARandFreqs false) (new_crab d nc ps true)).
Proof.
  split.
  - exists None, None, [AFixFreqs false]. split; [exists [], []; split; [reflexivity|constructor]|].
    unfold holds. intros H. apply (f_equal p_fix) in H. vm_compute in H. discriminate.
  - exists None, None, [ARandFreqs false]. split; [exists [], []; split; [reflexivity|constructor]|].
    unfold holds. intros H. apply (f_equal p_randf) in H. vm_compute in H. discriminate.
Qed.

(** Every usable generator can be initialised and makes a pulse. *)
Theorem C36_works rnd nc g guess ramp f fuel rnd' : usable g guess ramp f ->
  exists g1 p, init_pulse rnd (ICrab nc None) g = Ok g1 /\ gen_pulse fuel rnd' GNone g1 = Ok (g1, map F p) /\ length p = p_n g.
Proof.
  intros HU. pose proof HU as [HP HB]. destruct (init_crab_ok rnd nc None g guess ramp f HP I) as (g1 & t & m & s & c & E & _).
  assert (E' : init_pulse rnd (ICrab nc None) g = Ok g1) by (unfold init_pulse; rewrite (us_cls _ _ _ _ HP); exact E).
  assert (Hu : in_use (p_n g) g1) by (eapply iu_init; eauto). apply in_use_ready in Hu.
  destruct (ready_vars _ _ Hu) as (v & _ & Lv & Rv). destruct (ready_gen_pulse (p_n g) g1 v fuel rnd' Hu Lv) as (_ & _ & F3 & F4).
  rewrite Rv in F3. destruct (rg_coeffs _ _ Hu) as (c0 & Ec & _). rewrite Ec in F3. rewrite coeffs_eta in F3 by auto. eauto.
Qed.

(** So does one just constructed, with any dictionary that makes sense and
    leaves the columns for the sines and the cosines. *)
Theorem C36_construct rnd nc nc' d ps fix_freqs guess ramp f fuel rnd' : sensible d ps guess ramp f -> (2 <= columns_in ps)%nat ->
  exists g1 p, init_pulse rnd (ICrab nc None) (new_crab d nc' ps fix_freqs) = Ok g1 /\
    gen_pulse fuel rnd' GNone g1 = Ok (g1, map F p) /\ length p = slots_in d ps.
Proof.
  intros HS HC. destruct (new_dict d nc' ps fix_freqs guess ramp f HS) as (HP & X & B & N). rewrite <- N.
  apply (C36_works rnd nc _ guess ramp f). split; auto. unfold enough_columns. rewrite X, B. destruct fix_freqs; lia.
Qed.

(** After [reset] it does so exactly when the dictionary leaves enough columns:
    [reset] forgets the column of the frequencies that the constructor adds
    when the frequencies are optimised. *)
Theorem C36_reset rnd nc g guess ramp f fuel rnd' : p_cls g = CCrab -> sensible (p_parent g) (p_params g) guess ramp f ->
  let needed := if fix_in (p_params g) (p_fix g) then 2%nat else 3%nat in
  ((needed <= columns_in (p_params g))%nat ->
   exists g1 p, init_pulse rnd (ICrab nc None) (reset g) = Ok g1 /\ gen_pulse fuel rnd' GNone g1 = Ok (g1, map F p) /\
     length p = slots_in (p_parent g) (p_params g)) /\
  ((columns_in (p_params g) < needed)%nat ->
   exists g1, init_pulse rnd (ICrab nc None) (reset g) = Ok g1 /\ gen_pulse fuel rnd' GNone g1 = Raise IndexError).
Proof.
  intros C HS needed. pose proof (reset_sensible g guess ramp f C HS) as HP.
  destruct (reset_dict g C) as (_&_&_&_&_&_&_&_&_&X&B&N&_). rewrite <- N. unfold needed. rewrite <- X, <- B. split; intros L.
  - apply (C36_works rnd nc (reset g) guess ramp f). split; auto.
  - apply (short_fails rnd nc (reset g) guess ramp f); auto. unfold enough_columns. lia.
Qed.

(** A dictionary with bounds, a guess pulse and a ramp; the frequencies are
    optimised and the dictionary asks for three columns. *)
Definition dict1 : list attr := [ANum 2; ALb (BVal (F (-1))); AUb (BVal (F 1)); AGuess (Some [F 1; F 2]); AAction (Some "add"%string);
  ARamp (Some [F 0; F 1]); AFixFreqs false; ANumBasis 3].
Example C36_dict_case : sensible None dict1 (Some [1; 2]) (Some [0; 1]) PulseGen.Add /\
  fix_in dict1 true = false /\ columns_in dict1 = 3%nat /\ slots_in None dict1 = 2%nat.
Proof.
  split; [constructor|splits; reflexivity]; cbn; auto; try lia; try lra; try reflexivity.
  - unfold ordered. cbn. splits; auto; lra.
  - split; auto. exists "add"%string. split; reflexivity.
Qed.

(** So reset followed by init_pulse and gen_pulse never works for a generator
    constructed without a dictionary to optimise the frequencies. *)
Theorem C36_reset_refuted d nc nc' rnd fuel rnd' : parent_ok d ->
  (exists g1 p, init_pulse rnd (ICrab nc None) (new_crab d nc' [] false) = Ok g1 /\ gen_pulse fuel rnd' GNone g1 = Ok (g1, map F p)) /\
  (exists g1, init_pulse rnd (ICrab nc None) (reset (new_crab d nc' [] false)) = Ok g1 /\
     gen_pulse fuel rnd' GNone g1 = Raise IndexError).
Proof.
  intros D. assert (HS : sensible d [] None None PulseGen.Add).
  { destruct d as [d|]; cbn in D; constructor; cbn; auto using no_ordered; try reflexivity; try lia; try lra; apply D. }
  destruct (new_facts' d nc' false) as (C & X & P & Q). split.
  - destruct (C36_construct rnd nc nc' d [] false None None PulseGen.Add fuel rnd' HS) as (g1 & p & E1 & E2 & _); [cbn; lia|]. eauto.
  - set (g := new_crab d nc' [] false) in *. clearbody g. rewrite <- P, <- Q in HS.
    apply (C36_reset rnd nc _ _ _ _ fuel rnd' C HS). rewrite P, X. cbn. lia.
Qed.

Example C36_case : parent_ok (Some (mkParent 5 10 1 0 [2;2;2;2;2] 4)).
Proof. cbn. splits; try lia; lra. Qed.

(** Assumptions of all theorems of this file together (listed one by one in
    ASSUMPTIONS.txt). *)
Definition propsCrab :=
  (@C28_within_bounds,
   @C28_uninitialised,
   @C57_formula,
   @C57_start,
   @C30_concatenation,
   @C30_partition,
   @C30_round_trip,
   @C30_short,
   @C30_other_slots,
   @C30_coding,
   @C36_params_partial,
   @C36_freqs_refuted,
   @C36_works,
   @C36_construct,
   @C36_reset,
   @C36_reset_refuted).
Print Assumptions propsCrab.
