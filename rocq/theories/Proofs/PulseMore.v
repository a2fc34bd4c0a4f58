(** Infinite bounds, periodic parameters, Gaussian pulses and random waves. *)
From Coq Require Import Reals Lra Lia List ZArith.
From RecordUpdate Require Import RecordUpdate.
From Verif.Model Require Import PulseGen.
From Verif.Spec Require Import Pulses.
From Verif.Lib Require Import Lists.
From Verif.Proofs Require Import PulseFacts PulseShapes PulseWalks.
Import ListNotations.
Set Bullet Behavior "Strict Subproofs".
Local Open Scope R_scope.

Lemma gen_fresh_finite fuel rnd ga c g g0 raw : self_init c -> fresh c g -> ordered (p_lb g) (p_ub g) ->
  gen_pulse fuel rnd ga (unbounded g) = Ok (g0, map F raw) -> raw <> [] ->
  exists g' p a b, gen_pulse fuel rnd ga g = Ok (g', p) /\ 0 <= a <= 1 /\ p = map (fun y => F (a * y + b)) raw.
Proof.
  intros SI Hf O H Hne. destruct (fresh_facts _ _ Hf) as (Hc & Hr & _). rewrite <- Hc in SI.
  assert (NC : p_cls g <> CCrab) by apply SI.
  destruct (raw_unbounded _ _ _ _ _ _ NC H) as (raw' & E1 & Er & Z1 & Z2 & Z3).
  rewrite shift_F in Er.
  assert (Er' : raw = raw').
  { clear - Er. revert raw' Er. induction raw as [|x raw IH]; intros [|y raw'] E; cbn in E; try discriminate; auto.
    injection E as Ex E. f_equal; auto. lra. }
  subst raw'. clear Er.
  destruct (gen_raw_b fuel rnd ga (p_lb g) (p_ub g) (p_offset g) g O NC) as (l' & u' & K & E).
  rewrite set_b_self, E1 in E. cbn [rmap] in E. unfold set_b2, on_fst in E. cbn [fst snd] in E.
  destruct (gen_bounded _ _ _ _ _ _ NC O H Hne) as (g' & p & Ep & _).
  pose proof Ep as Ep'. rewrite gen_pulse_std, E in Ep' by auto. cbn [bind] in Ep'.
  apply bind_inv in Ep'. destruct Ep' as (q & Eq & Z). injection Z as Z1' Z2'. subst q.
  destruct (gen_finite _ _ _ _ _ _ _ SI O (or_introl Hr) E Hne Eq) as (a & b & Hab & ->).
  exists g', (map F (map (fun y => a * y + b) raw)), a, b. split; auto. split; auto. rewrite map_map. reflexivity.
Qed.

(** * Periodic parameters *)
Lemma init_base_again g g' : init_base g = Ok g' -> ordered (p_lb g) (p_ub g) -> init_base g' = Ok g'.
Proof.
  intros H O. destruct (init_base_tame _ _ H O) as (T1 & T2).
  apply init_base_inv in H. destruct H as (tm & lb & ub & E & Et & El & Eu).
  assert (OO : match ub, lb with BVal u, BVal l => fltb u l = false | _, _ => True end).
  { destruct O as (A & B & C). destruct (p_lb g) as [|[]|], (p_ub g) as [|[]|]; cbn in *; try contradiction;
      injection El as <-; injection Eu as <-; auto. cbn; unfold Rltb.
    match goal with |- context [Rlt_dec ?x ?y] => destruct (Rlt_dec x y); auto; lra end. }
  assert (NL : norm_bound lb = Ok lb /\ norm_bound ub = Ok ub).
  { subst g'. assert (L : p_lb (g <| p_tau := Some (tau_or g) |> <| p_time := tm |> <| p_ready := true |> <| p_lb := lb |> <| p_ub := ub |>) = lb) by reflexivity.
    rewrite L in T1. change (tame ub) in T2. destruct lb as [|[]|], ub as [|[]|]; cbn in *; try contradiction; auto. }
  destruct NL as [NL1 NL2].
  subst g'. destruct g. unfold init_base. cbn -[times norm_bound] in *.
  destruct p_uses_time.
  - destruct Et as (ts & -> & ->). cbn -[times norm_bound]. rewrite NL1. cbn -[norm_bound]. rewrite NL2. cbn.
    destruct ub, lb; auto. rewrite OO. reflexivity.
  - subst tm. cbn -[norm_bound]. rewrite NL1. cbn -[norm_bound]. rewrite NL2. cbn.
    destruct ub, lb; auto. rewrite OO. reflexivity.
Qed.

Lemma pydiv_inv x y z : pydiv x y = Ok z -> y <> 0 /\ z = x / y.
Proof. unfold pydiv. destruct (Req_EM_T y 0); [discriminate|]. intros H. injection H as <-. auto. Qed.

Lemma periodic_consistent a b c d g g' : init_periodic a b c d g = Ok g' ->
  exists f w, p_freq g' = Some f /\ p_wlen g' = Some w /\ w * f = 1.
Proof.
  intros H. unfold init_periodic in H. apply bind_inv in H. destruct H as (g1 & _ & H). cbn zeta in H.
  match type of H with match p_waves ?x with _ => _ end = _ => set (g2 := x) in H end. clearbody g2. clear g1.
  destruct (p_waves g2) as [nw|].
  - apply bind_inv in H. destruct H as (f & E1 & H). apply bind_inv in H. destruct H as (w & E2 & H). injection H as <-.
    apply pydiv_inv in E2. destruct E2 as [Hf ->]. exists f, (1 / f). repeat split; auto. field. auto.
  - destruct (p_wlen g2) as [w|] eqn:Ew.
    + apply bind_inv in H. destruct H as (f & E1 & H). injection H as <-. apply pydiv_inv in E1. destruct E1 as [Hw ->].
      exists (1 / w), w. split; [reflexivity|]. split; [exact Ew|]. field. auto.
    + destruct (p_freq g2) as [f|] eqn:Ef; [|discriminate].
      apply bind_inv in H. destruct H as (w & E1 & H). injection H as <-. apply pydiv_inv in E1. destruct E1 as [Hf ->].
      exists f, (1 / f). split; [exact Ef|]. split; [reflexivity|]. field. auto.
Qed.

(** [num_waves] is in force: given now, or an attribute that is not overridden. *)
Lemma periodic_waves a b c d g g' nw : ordered (p_lb g) (p_ub g) ->
  a = Some nw \/ (a = None /\ b = None /\ c = None /\ p_waves g = Some nw) ->
  init_periodic a b c d g = Ok g' ->
  exists f, p_freq g' = Some f /\ p_waves g' = Some nw /\ nw = f * p_T g' /\ init_periodic None None None None g' = Ok g'.
Proof.
  intros O Ha H. unfold init_periodic in H. apply bind_inv in H. destruct H as (g1 & E1 & H). cbn zeta in H.
  pose proof (init_base_again _ _ E1 O) as A1.
  assert (EW : p_waves g1 = p_waves g).
  { apply init_base_inv in E1. destruct E1 as (tm & lb & ub & -> & _). destruct g; reflexivity. }
  match type of H with match p_waves ?x with _ => _ end = _ => set (g2 := x) in H end.
  assert (A2 : init_base g2 = Ok g2 /\ p_waves g2 = Some nw).
  { unfold g2. clearbody g2 || idtac.
    assert (K : forall x ph w2 w3 w4, init_base x = Ok x ->
       init_base (x <| p_phase := ph |>) = Ok (x <| p_phase := ph |>) /\
       init_base (x <| p_waves := w2 |> <| p_wlen := w3 |> <| p_freq := w4 |>) = Ok (x <| p_waves := w2 |> <| p_wlen := w3 |> <| p_freq := w4 |>)).
    { clear. intros x ph w2 w3 w4 H. destruct x. unfold init_base in *. cbn -[times norm_bound] in *.
      destruct p_uses_time, p_tau; cbn -[times norm_bound] in *; try (destruct (times _ _ _); cbn -[norm_bound] in *; [|discriminate]);
            destruct (norm_bound p_lb) as [lb'|]; cbn -[norm_bound] in *; try discriminate;
            destruct (norm_bound p_ub) as [ub'|]; cbn in *; try discriminate;
            destruct ub', lb'; try (destruct (fltb _ _); [discriminate|]); injection H; intros; try discriminate; subst; split; reflexivity. }
    clear H E1. destruct Ha as [->|(-> & -> & -> & Hw)].
    - destruct d as [d|].
      + destruct (K g1 d None None None A1) as [K1 _]. destruct (K _ 0 (Some nw) b c K1) as [_ K2]. split; [exact K2|reflexivity].
      + destruct (K g1 0 (Some nw) b c A1) as [_ K2]. split; [exact K2|reflexivity].
    - destruct d as [d|].
      + destruct (K g1 d None None None A1) as [K1 _]. split; [exact K1|]. rewrite <- Hw, <- EW. reflexivity.
      + split; [exact A1|]. congruence. }
  clearbody g2. destruct A2 as [A2 W2]. rewrite W2 in H.
  apply bind_inv in H. destruct H as (f & F1 & H). apply bind_inv in H. destruct H as (w & F2 & H). injection H as <-.
  pose proof F1 as F1'. apply pydiv_inv in F1'. destruct F1' as [HT Ef].
  exists f. split; [reflexivity|]. split; [exact W2|]. split.
  { change (p_T _) with (p_T g2). rewrite Ef. field. auto. }
  set (g3 := g2 <| p_freq := Some f |> <| p_wlen := Some w |>).
  assert (A3 : init_base g3 = Ok g3).
  { clear - A2. unfold g3. destruct g2. unfold init_base in *. cbn -[times norm_bound] in *.
      destruct p_uses_time, p_tau; cbn -[times norm_bound] in *; try (destruct (times _ _ _); cbn -[norm_bound] in *; [|discriminate]);
            destruct (norm_bound p_lb) as [lb'|]; cbn -[norm_bound] in *; try discriminate;
            destruct (norm_bound p_ub) as [ub'|]; cbn in *; try discriminate;
            destruct ub', lb'; try (destruct (fltb _ _); [discriminate|]); injection A2; intros; try discriminate; subst; reflexivity. }
  unfold init_periodic. rewrite A3. cbn [bind]. change (p_waves g3) with (p_waves g2). rewrite W2.
  change (p_T g3) with (p_T g2). rewrite F1. cbn [bind]. rewrite F2. cbn [bind]. reflexivity.
Qed.

(** * Pulses computed from the times *)
Lemma plain_time g : (uses (p_cls g) = true -> p_uses_time g = true) -> uses (p_cls g) = true -> p_cls g <> CCrab ->
  p_ready g = false -> p_lb g = BNo -> p_ub g = BNo -> length (slots g) = p_n g -> forall rnd,
  exists ts g1, ensure rnd g = Ok g1 /\
    g1 = g <| p_tau := Some (slots g) |> <| p_time := Some ts |> <| p_ready := true |> <| p_lb := BNo |> <| p_ub := BNo |> /\
    length ts = p_n g /\
    forall k, (k < p_n g)%nat -> nth_error ts k = Some (start_of (slots g) k).
Proof.
  intros Hu Huc Hc Hr L U Hl rnd. specialize (Hu Huc).
  destruct (init_base_ok g) as (tm & Eb & Et).
  { intros _. rewrite slots_eq, Hl. lia. } { rewrite L, U. apply no_ordered. }
  rewrite Hu in Et. destruct Et as (ts & Ets & ->).
  destruct (times_inv _ _ _ _ Ets) as (Lts & Nts).
  eexists. eexists. split; [|split; [reflexivity|split; [exact Lts|]]].
  - unfold ensure. rewrite Hr. unfold init_pulse.
    destruct (p_cls g); try discriminate Huc; try congruence; rewrite Eb, L, U, slots_eq; reflexivity.
  - intros k Hk. rewrite Nts, Rplus_0_l, slots_eq by auto. reflexivity.
Qed.

Lemma gauss_gen fuel rnd g mo vo :
  fresh CGauss g -> p_lb g = BNo -> p_ub g = BNo -> length (slots g) = p_n g ->
  truthy vo (p_var g) <> 0 ->
  exists g' p, gen_pulse fuel rnd (GGauss mo vo) g = Ok (g', p) /\ length p = p_n g /\
    (mo = None -> vo = None -> gen_pulse fuel rnd GNone g = Ok (g', p)) /\
    forall k, (k < p_n g)%nat -> nth_error p k =
      Some (F (p_scale g * exp (- (start_of (slots g) k - truthy mo (p_mean g)) ^ 2 / (2 * truthy vo (p_var g))) + p_offset g)).
Proof.
  intros Hf L U Hl Hv. destruct (fresh_facts _ _ Hf) as (Hc & Hr & Hu).
  assert (NC : p_cls g <> CCrab) by (rewrite Hc; discriminate).
  destruct (plain_time g) with (rnd := rnd) as (ts & g1 & E1 & G1 & Lt & Nt); auto; try (rewrite Hc; auto; fail).
  assert (ER : forall ga, ga = GGauss mo vo \/ (ga = GNone /\ mo = None /\ vo = None) ->
    gen_raw fuel rnd ga g = Ok (g1, map (fun t => F (p_scale g * exp (- (t - truthy mo (p_mean g)) ^ 2 / (2 * truthy vo (p_var g))))) ts)).
  { intros ga Hga. unfold gen_raw. rewrite Hc.
    assert (GG : gen_gauss rnd mo vo g = Ok (g1, map (fun t => F (p_scale g * exp (- (t - truthy mo (p_mean g)) ^ 2 / (2 * truthy vo (p_var g))))) ts)).
    { unfold gen_gauss. rewrite E1. cbn [bind]. unfold gauss_pulse, time_of.
      assert (p_time g1 = Some ts /\ p_mean g1 = p_mean g /\ p_var g1 = p_var g /\ p_scale g1 = p_scale g) as (-> & -> & -> & ->)
        by (subst g1; repeat split; reflexivity).
      cbn [bind]. cbn zeta. do 2 f_equal. apply map_ext. intros t. cbn [fdiv].
      destruct (Req_EM_T (2 * truthy vo (p_var g)) 0); [lra|]. cbn [fexp fmul]. reflexivity. }
    destruct Hga as [->|(-> & -> & ->)]; exact GG. }
  exists g1. eexists. split; [|split; [|split]].
  - apply gen_plain; [auto|apply ER; auto|subst g1; reflexivity|subst g1; reflexivity].
  - unfold shift. rewrite !map_length. auto.
  - intros -> ->. apply gen_plain; [auto|apply ER; auto|subst g1; reflexivity|subst g1; reflexivity].
  - intros k Hk. unfold shift. rewrite map_map, nth_error_map, Nt by auto. cbn [option_map fadd].
    assert (p_offset g1 = p_offset g) as -> by (subst g1; reflexivity). reflexivity.
Qed.

Lemma edge_gen fuel rnd g dt :
  fresh CEdge g -> p_lb g = BNo -> p_ub g = BNo -> length (slots g) = p_n g ->
  truthy dt (p_decay g) <> 0 ->
  exists g' p, gen_pulse fuel rnd (GEdge dt) g = Ok (g', p) /\ length p = p_n g /\
    (dt = None -> gen_pulse fuel rnd GNone g = Ok (g', p)) /\
    forall k, (k < p_n g)%nat -> let t := start_of (slots g) k in nth_error p k =
      Some (F (p_scale g * (1 - exp (- t ^ 2 / truthy dt (p_decay g)) - exp (- (p_T g - t) ^ 2 / truthy dt (p_decay g))) + p_offset g)).
Proof.
  intros Hf L U Hl Hv. destruct (fresh_facts _ _ Hf) as (Hc & Hr & Hu).
  assert (NC : p_cls g <> CCrab) by (rewrite Hc; discriminate).
  destruct (plain_time g) with (rnd := rnd) as (ts & g1 & E1 & G1 & Lt & Nt); auto; try (rewrite Hc; auto; fail).
  set (val := fun t => p_scale g * (1 - exp (- t ^ 2 / truthy dt (p_decay g)) - exp (- (p_T g - t) ^ 2 / truthy dt (p_decay g)))).
  assert (ER : forall ga, ga = GEdge dt \/ (ga = GNone /\ dt = None) ->
    gen_raw fuel rnd ga g = Ok (g1, map (fun t => F (val t)) ts)).
  { intros ga Hga. unfold gen_raw. rewrite Hc.
    assert (GG : gen_edge rnd dt g = Ok (g1, map (fun t => F (val t)) ts)).
    { unfold gen_edge. rewrite E1. cbn [bind]. unfold edge_pulse, time_of.
      assert (p_time g1 = Some ts /\ p_T g1 = p_T g /\ p_decay g1 = p_decay g /\ p_scale g1 = p_scale g) as (-> & -> & -> & ->)
        by (subst g1; repeat split; reflexivity).
      cbn [bind]. cbn zeta. do 2 f_equal. apply map_ext. intros t. cbn [fdiv].
      destruct (Req_EM_T (truthy dt (p_decay g)) 0); [contradiction|]. unfold fsub. cbn [fexp fmul fadd fopp]. unfold val. f_equal.
      replace ((t - p_T g) ^ 2) with ((p_T g - t) ^ 2) by ring. ring. }
    destruct Hga as [->|(-> & ->)]; exact GG. }
  exists g1. eexists. split; [|split; [|split]].
  - apply gen_plain; [auto|apply ER; auto|subst g1; reflexivity|subst g1; reflexivity].
  - unfold shift. rewrite !map_length. auto.
  - intros ->. apply gen_plain; [auto|apply ER; auto|subst g1; reflexivity|subst g1; reflexivity].
  - intros k Hk. unfold shift. rewrite map_map, nth_error_map, Nt by auto. cbn [option_map fadd].
    assert (p_offset g1 = p_offset g) as -> by (subst g1; reflexivity). reflexivity.
Qed.

Lemma waves_gen fuel rnd g :
  fresh CWaves g -> draws rnd -> p_lb g = BNo -> p_ub g = BNo -> length (slots g) = p_n g ->
  0 < p_minwl g -> p_minwl g < p_maxwl g -> p_minwl g <= p_T g -> (0 < p_comp g)%nat ->
  exists wl amp ph g' p,
    (forall i, (i < p_comp g)%nat -> p_minwl g <= wl i < p_maxwl g /\
       Rabs (amp i) <= sqrt 8 * Rabs (p_scale g) / INR (p_comp g) /\ 0 <= ph i < PI / 2) /\
    gen_pulse fuel rnd GNone g = Ok (g', p) /\ length p = p_n g /\
    forall k, (k < p_n g)%nat -> exists x, nth_error p k = Some (F (x + p_offset g)) /\
      x = fold_right Rplus 0 (map (fun i => amp i * sin (2 * PI * start_of (slots g) k / wl i + ph i)) (range (p_comp g))) /\
      Rabs x <= sqrt 8 * Rabs (p_scale g).
Proof.
  intros Hf Hd L U Hl H0 H1 H2 Hn. destruct (fresh_facts _ _ Hf) as (Hc & Hr & Hu).
  assert (NC : p_cls g <> CCrab) by (rewrite Hc; discriminate).
  destruct (plain_time g) with (rnd := rnd) as (ts & g1 & E1 & G1 & Lt & Nt); auto; try (rewrite Hc; auto; fail).
  assert (IK : 0 < INR (p_comp g)) by (apply lt_0_INR; auto).
  set (amp := fun i => sqrt 8 * p_scale g / INR (p_comp g) * (rnd (3 * i)%nat * 2 - 1)).
  set (ph := fun i => rnd (3 * i + 1)%nat * PI / 2).
  set (wl := fun i => p_minwl g + rnd (3 * i + 2)%nat * (p_maxwl g - p_minwl g)).
  assert (Ha : forall i, Rabs (amp i) <= sqrt 8 * Rabs (p_scale g) / INR (p_comp g)).
  { intros i. unfold amp. rewrite Rmult_comm. eapply Rle_trans; [apply scaled_draw, draw_range; auto|].
    unfold Rdiv. rewrite !Rabs_mult, Rabs_inv, (Rabs_pos_eq (sqrt 8)) by apply sqrt_pos. rewrite (Rabs_pos_eq (INR _)) by lra. lra. }
  assert (Hw : forall i, p_minwl g <= wl i < p_maxwl g).
  { intros i. unfold wl. specialize (Hd (3 * i + 2)%nat). split.
    - assert (0 <= rnd (3 * i + 2)%nat * (p_maxwl g - p_minwl g)) by (apply Rmult_le_pos; lra). lra.
    - assert (rnd (3 * i + 2)%nat * (p_maxwl g - p_minwl g) < 1 * (p_maxwl g - p_minwl g)) by (apply Rmult_lt_compat_r; lra). lra. }
  set (ws := map (fun i => (amp i, wl i, ph i)) (range (p_comp g))).
  assert (ER : gen_raw fuel rnd GNone g = Ok (g1, map (fun t => F (wave_sum ws t)) ts)).
  { unfold gen_raw. rewrite Hc. unfold gen_waves. cbn [or_keep].
    replace (g <| p_comp := p_comp g |> <| p_minwl := p_minwl g |> <| p_maxwl := p_maxwl g |>) with g by (destruct g; reflexivity).
    cbn zeta.
    assert (Rltb (p_T g) (p_minwl g) = false) as -> by (unfold Rltb; destruct (Rlt_dec (p_T g) (p_minwl g)); auto; lra).
    assert (Rleb (p_maxwl g) (p_minwl g) = false) as -> by (unfold Rleb; destruct (Rle_dec (p_maxwl g) (p_minwl g)); auto; lra).
    rewrite E1. cbn [bind]. unfold waves_pulse, tau_of, time_of.
    assert (p_tau g1 = Some (slots g) /\ p_time g1 = Some ts /\ p_comp g1 = p_comp g /\ p_minwl g1 = p_minwl g
            /\ p_maxwl g1 = p_maxwl g /\ p_scale g1 = p_scale g) as (-> & -> & -> & -> & -> & ->) by (subst g1; repeat split; reflexivity).
    cbn [bind].
    assert (EM : match p_comp g with 0%nat => Ok [] | S _ => Ok ts end = Ok ts) by (destruct (p_comp g); [lia|reflexivity]).
    rewrite EM. cbn [bind].
    change (random_waves rnd (p_scale g) (p_minwl g) (p_maxwl g) (p_comp g)) with ws.
    assert (Er : repeat (F 0) (length (slots g)) = map (fun t => F ((fun _ => 0) t)) ts).
    { rewrite Hl, <- Lt. clear. induction ts; cbn; congruence. }
    rewrite Er, add_waves_ok.
    - cbn [bind]. do 2 f_equal. apply map_ext. intros. cbn beta. rewrite Rplus_0_l. reflexivity.
    - unfold ws. apply Forall_forall. intros w Hi. apply in_map_iff in Hi. destruct Hi as (i & <- & _). cbn [fst snd].
      specialize (Hw i). lra. }
  exists wl, amp, ph, g1, (shift (F (p_offset g1)) (map (fun t => F (wave_sum ws t)) ts)).
  split; [|split; [|split]].
  - intros i _. split; [apply Hw|]. split; [apply Ha|]. unfold ph. pose proof PI_RGT_0. specialize (Hd (3 * i + 1)%nat).
    assert (0 <= rnd (3 * i + 1)%nat * PI) by (apply Rmult_le_pos; lra).
    assert (rnd (3 * i + 1)%nat * PI < 1 * PI) by (apply Rmult_lt_compat_r; lra). lra.
  - apply gen_plain; [auto|apply ER; auto|subst g1; reflexivity|subst g1; reflexivity].
  - unfold shift. rewrite !map_length. auto.
  - intros k Hk. exists (wave_sum ws (start_of (slots g) k)).
    unfold shift. rewrite map_map, nth_error_map, Nt by auto. cbn [option_map fadd].
    assert (p_offset g1 = p_offset g) as -> by (subst g1; reflexivity). split; [reflexivity|]. split.
    + unfold wave_sum, ws. rewrite map_map. reflexivity.
    + eapply Rle_trans; [apply (wave_sum_bound (sqrt 8 * Rabs (p_scale g) / INR (p_comp g)))|].
      * unfold ws. apply Forall_forall. intros w Hi. apply in_map_iff in Hi. destruct Hi as (i & <- & _). cbn [fst]. apply Ha.
      * unfold ws. rewrite map_length. unfold range. rewrite seq_length. right. field. lra.
Qed.

(** Computing with concrete numbers: decide the comparisons. *)
Ltac decide_reals :=
  repeat (cbn -[Rlt_dec Rle_dec Req_EM_T]; unfold Rltb, Rleb, Reqb, signed_inf;
          match goal with
          | |- context [Rlt_dec ?a ?b] => destruct (Rlt_dec a b); [try (exfalso; lra)|try (exfalso; lra)]
          | |- context [Rle_dec ?a ?b] => destruct (Rle_dec a b); [try (exfalso; lra)|try (exfalso; lra)]
          | |- context [Req_EM_T ?a ?b] => destruct (Req_EM_T a b); [try (exfalso; lra)|try (exfalso; lra)]
          end); cbn.
Lemma pydiv_ok x y : y <> 0 -> pydiv x y = Ok (x / y).
Proof. intros H. unfold pydiv. destruct (Req_EM_T y 0); [contradiction|reflexivity]. Qed.

(** The parameters [init_periodic] uses: the given ones when one is given. *)
Definition in_force (a b c : option R) (g : pgen) : option R * option R * option R :=
  match a, b, c with None, None, None => (p_waves g, p_wlen g, p_freq g) | _, _, _ => (a, b, c) end.

Lemma init_periodic_ok a b c d g : ordered (p_lb g) (p_ub g) -> length (slots g) = p_n g -> p_T g <> 0 ->
  forall nw f, match in_force a b c g with
       | (Some n, _, _) => nw = n /\ f = n / p_T g /\ n <> 0
       | (None, Some w, _) => w <> 0 /\ f = 1 / w /\ nw = w * p_T g
       | (None, None, Some x) => x <> 0 /\ f = x /\ nw = 1 / x * p_T g
       | _ => False
       end ->
  exists g', init_periodic a b c d g = Ok g' /\ p_freq g' = Some f /\ p_waves g' = Some nw /\
    p_T g' = p_T g /\ p_n g' = p_n g /\ slots g' = slots g /\ ordered (p_lb g') (p_ub g') /\ p_ready g' = true.
Proof.
  intros O Hl HT nw f H. unfold init_periodic.
  destruct (init_base_ok g) as (tm & Eb & _); [intros _; rewrite slots_eq, Hl; lia|auto|].
  pose proof (init_base_tame _ _ Eb O) as (T1 & T2).
  rewrite Eb. cbn [bind].
  set (g1 := g <| p_tau := Some (tau_or g) |> <| p_time := tm |> <| p_ready := true |>
               <| p_lb := nb (p_lb g) |> <| p_ub := nb (p_ub g) |>) in *.
  assert (A : p_waves g1 = p_waves g /\ p_wlen g1 = p_wlen g /\ p_freq g1 = p_freq g /\ p_T g1 = p_T g /\ p_n g1 = p_n g /\
    slots g1 = slots g /\ ordered (p_lb g1) (p_ub g1) /\ p_ready g1 = true).
  { repeat (split; [reflexivity|]). split; [rewrite <- (slots_eq g); reflexivity|]. split; [|reflexivity].
    change (ordered (nb (p_lb g)) (nb (p_ub g))). eapply kept_ordered; eauto. right. auto. }
  clearbody g1. destruct A as (A1 & A2 & A3 & A4 & A5 & A6 & A7 & A8).
  unfold in_force in H. cbn zeta.
  assert (B : exists g2, match a, b, c with
           | None, None, None => match d with Some x => g1 <| p_phase := x |> | None => g1 end
           | _, _, _ => match d with Some x => g1 <| p_phase := x |> | None => g1 end <| p_waves := a |> <| p_wlen := b |> <| p_freq := c |>
           end = g2 /\ (p_waves g2, p_wlen g2, p_freq g2) = match a, b, c with None, None, None => (p_waves g, p_wlen g, p_freq g) | _, _, _ => (a, b, c) end
           /\ p_T g2 = p_T g /\ p_n g2 = p_n g /\ slots g2 = slots g /\ ordered (p_lb g2) (p_ub g2) /\ p_ready g2 = true).
  { eexists. split; [reflexivity|]. destruct g1; cbn in *; subst. destruct a, b, c, d; cbn; auto 8. }
  destruct B as (g2 & -> & B1 & B2 & B3 & B4 & B5 & B6). rewrite <- B1 in H. clear B1 A1 A2 A3.
  assert (C : forall x y z, let g3 := g2 <| p_freq := x |> <| p_wlen := y |> in let g4 := g2 <| p_freq := x |> <| p_waves := z |> in
     let g5 := g2 <| p_wlen := y |> <| p_waves := z |> in
     forall g0, In g0 [g3; g4; g5] -> p_T g0 = p_T g /\ p_n g0 = p_n g /\ slots g0 = slots g /\ ordered (p_lb g0) (p_ub g0) /\ p_ready g0 = true).
  { intros x y z g3 g4 g5 g0 H0. destruct g2; cbn in *.
    destruct H0 as [<-|[<-|[<-|[]]]]; cbn; auto. }
  destruct (p_waves g2) as [n|] eqn:W; [|destruct (p_wlen g2) as [w|] eqn:V; [|destruct (p_freq g2) as [x|] eqn:X; [|contradiction]]].
  - destruct H as (-> & -> & Hn). rewrite B2, pydiv_ok by auto. cbn [bind].
    assert (n / p_T g <> 0) by (unfold Rdiv; apply Rmult_integral_contrapositive; split; auto; apply Rinv_neq_0_compat; auto).
    rewrite pydiv_ok by auto. cbn [bind]. eexists. split; [reflexivity|]. split; [reflexivity|]. split; [exact W|].
    apply (C (Some (n / p_T g)) (Some (1 / (n / p_T g))) None). left. reflexivity.
  - destruct H as (Hw & -> & ->). rewrite pydiv_ok by auto. cbn [bind]. eexists. split; [reflexivity|]. split; [reflexivity|].
    split; [rewrite <- B2; reflexivity|]. apply (C (Some (1 / w)) None (Some (w * p_T g2))). right. left. reflexivity.
  - destruct H as (Hx & -> & ->). rewrite pydiv_ok by auto. cbn [bind]. eexists. split; [reflexivity|]. split; [exact X|].
    split; [rewrite <- B2; reflexivity|]. apply (C None (Some (1 / x)) (Some (1 / x * p_T g2))). right. right. left. reflexivity.
Qed.

Lemma gen_periodic_ok fuel rnd a b c d g nw f :
  is_periodic (p_cls g) = true -> p_lb g = BNo -> p_ub g = BNo -> length (slots g) = p_n g -> p_T g <> 0 ->
  (a, b, c) <> (None, None, None) ->
  match (a, b, c) with
  | (Some n, _, _) => nw = n /\ f = n / p_T g /\ n <> 0
  | (None, Some w, _) => w <> 0 /\ f = 1 / w /\ nw = w * p_T g
  | (None, None, Some x) => x <> 0 /\ f = x /\ nw = 1 / x * p_T g
  | _ => False
  end ->
  exists g' p, gen_pulse fuel rnd (GPeriodic a b c d) g = Ok (g', p) /\ p_freq g' = Some f.
Proof.
  intros Hp L U Hl HT HN HF.
  assert (NC : p_cls g <> CCrab) by (intros Z; rewrite Z in Hp; discriminate).
  set (g0 := g <| p_phase := or_keep d (p_phase g) |>).
  destruct (init_periodic_ok a b c d g0) with (nw := nw) (f := f) as (g1 & E1 & F1 & _ & T1 & N1 & S1 & O1 & R1).
  - destruct g; cbn in *; subst. apply no_ordered.
  - destruct g; cbn in *; auto.
  - destruct g; cbn in *; auto.
  - unfold in_force. destruct a, b, c; try congruence; destruct g; exact HF.
  - assert (SF : same_frame g0 g1) by (eapply init_periodic_same; eauto).
    assert (Ta : p_tau g1 = Some (tau_or g0)) by (eapply init_periodic_same; eauto).
    destruct SF as (C1 & N2 & _ & Sc & Of & L1 & U1).
    assert (L1' : p_lb g1 = BNo) by (apply L1; destruct g; auto).
    assert (U1' : p_ub g1 = BNo) by (apply U1; destruct g; auto).
    destruct (along_ok (fun t => F (p_scale g1 * periodic_value (p_cls g1) f (p_phase g1) t)) (p_n g1) 0 (tau_or g0)) as (p & Ep & _).
    { rewrite slots_eq, N1. change (slots g0) with (slots g). rewrite Hl. apply le_n. }
    assert (ER : exists q, gen_raw fuel rnd (GPeriodic a b c d) g = Ok (g1, q)).
    { assert (gen_raw fuel rnd (GPeriodic a b c d) g = gen_periodic rnd a b c d g) as ->
        by (unfold gen_raw; destruct (p_cls g); try discriminate; reflexivity).
      unfold gen_periodic. cbn zeta. fold g0.
      replace (given a || given b || given c)%bool with true by (destruct a, b, c; try congruence; reflexivity).
      rewrite E1. cbn [bind]. unfold ensure. rewrite R1. cbn [bind]. unfold periodic_pulse.
      destruct (p_n g1) as [|n] eqn:En; [eexists; reflexivity|]. rewrite F1. unfold tau_of. rewrite Ta. cbn [bind].
      rewrite Ep. cbn [bind]. eexists. reflexivity. }
    destruct ER as (q & ER). exists g1. eexists. split; [apply gen_plain; eauto|auto].
Qed.

Lemma map_cons_F x l v : l = map F v -> F x :: l = map F (x :: v).
Proof. intros ->. reflexivity. Qed.

Lemma seq_norm g g' l : init_base g = Ok g' -> p_lb g = BSeq l -> False.
Proof.
  intros H E. apply init_base_inv in H. destruct H as (tm & lb & ub & _ & _ & El & _). rewrite E in El. discriminate.
Qed.
Lemma seq_ensure rnd g g' l : p_cls g <> CCrab -> ensure rnd g = Ok g' -> p_lb g = BSeq l -> p_lb g' = BSeq l.
Proof.
  intros Hc H E. unfold ensure in H. destruct (p_ready g).
  - injection H as <-. auto.
  - exfalso. unfold init_pulse in H.
    destruct (p_cls g); try congruence; try (eapply seq_norm; eauto; fail).
    all: unfold init_linear, init_periodic in H; apply bind_inv in H; destruct H as (g1 & H & _); eapply seq_norm; eauto.
Qed.
Lemma seq_lb fuel rnd ga g g' p l : p_cls g <> CCrab -> gen_raw fuel rnd ga g = Ok (g', p) -> p_lb g = BSeq l -> p_lb g' = BSeq l.
Proof.
  intros Hc H E.
  assert (K : forall g1 (k : pgen -> Res (pgen * list flt)), (forall x y q, k x = Ok (y, q) -> y = x) ->
     p_cls g1 = p_cls g -> p_lb g1 = p_lb g -> bind (ensure rnd g1) k = Ok (g', p) -> p_lb g' = BSeq l).
  { intros g1 k Hk C L H1. apply bind_inv in H1. destruct H1 as (g2 & E2 & H1). apply Hk in H1. subst g'.
    eapply (seq_ensure rnd g1); eauto; congruence. }
  assert (K0 : forall k : pgen -> Res (pgen * list flt), (forall x y q, k x = Ok (y, q) -> y = x) -> k g = Ok (g', p) -> p_lb g' = BSeq l).
  { intros k Hk H1. apply Hk in H1. subst g'. auto. }
  assert (P : forall x y q, fourier_pulse fuel rnd x = Ok (y, q) -> y = x).
  { intros x y q Hx. unfold fourier_pulse in Hx. repeat (apply bind_inv in Hx; destruct Hx as (? & _ & Hx)). congruence. }
  assert (P1 : forall x y q, waves_pulse rnd x = Ok (y, q) -> y = x).
  { intros x y q Hx. unfold waves_pulse in Hx. repeat (apply bind_inv in Hx; destruct Hx as (? & _ & Hx)). congruence. }
  assert (P2 : forall x y q, walk1_pulse rnd x = Ok (y, q) -> y = x).
  { intros x y q Hx. unfold walk1_pulse in Hx. repeat (apply bind_inv in Hx; destruct Hx as (? & _ & Hx)). congruence. }
  assert (P3 : forall x y q, walk2_pulse rnd x = Ok (y, q) -> y = x).
  { intros x y q Hx. unfold walk2_pulse in Hx. repeat (apply bind_inv in Hx; destruct Hx as (? & _ & Hx)). congruence. }
  assert (P4 : forall x y q, linear_pulse x = Ok (y, q) -> y = x).
  { intros x y q Hx. unfold linear_pulse in Hx. destruct (p_n x); [congruence|]. destruct (p_grad x), (p_start x); try discriminate.
    repeat (apply bind_inv in Hx; destruct Hx as (? & _ & Hx)). congruence. }
  assert (P5 : forall x y q, periodic_pulse x = Ok (y, q) -> y = x).
  { intros x y q Hx. unfold periodic_pulse in Hx. destruct (p_n x); [congruence|]. destruct (p_freq x); try discriminate.
    repeat (apply bind_inv in Hx; destruct Hx as (? & _ & Hx)). congruence. }
  assert (P6 : forall a b x y q, gauss_pulse a b x = Ok (y, q) -> y = x).
  { intros a b x y q Hx. unfold gauss_pulse in Hx. repeat (apply bind_inv in Hx; destruct Hx as (? & _ & Hx)). congruence. }
  assert (P7 : forall a x y q, edge_pulse a x = Ok (y, q) -> y = x).
  { intros a x y q Hx. unfold edge_pulse in Hx. repeat (apply bind_inv in Hx; destruct Hx as (? & _ & Hx)). congruence. }
  assert (GF : forall m, gen_fourier fuel rnd m g = Ok (g', p) -> p_lb g' = BSeq l).
  { intros m Hx. unfold gen_fourier in Hx. cbn zeta in Hx. destruct (Rltb _ _); [discriminate|]. eapply K; [exact P| | |exact Hx]; reflexivity. }
  assert (GW : forall a b c, gen_waves rnd a b c g = Ok (g', p) -> p_lb g' = BSeq l).
  { intros a b c Hx. unfold gen_waves in Hx. cbn zeta in Hx. destruct (Rltb _ _); [discriminate|]. destruct (Rleb _ _); [discriminate|].
    eapply K; [exact P1| | |exact Hx]; reflexivity. }
  assert (G1 : forall a, gen_walk1 rnd a g = Ok (g', p) -> p_lb g' = BSeq l).
  { intros a Hx. unfold gen_walk1 in Hx. cbn zeta in Hx. eapply K; [exact P2| | |exact Hx]; reflexivity. }
  assert (G2 : forall a, gen_walk2 rnd a g = Ok (g', p) -> p_lb g' = BSeq l).
  { intros a Hx. unfold gen_walk2 in Hx. cbn zeta in Hx. eapply K; [exact P3| | |exact Hx]; reflexivity. }
  assert (GL : forall a b c, gen_linear rnd a b c g = Ok (g', p) -> p_lb g' = BSeq l).
  { intros a b c Hx. unfold gen_linear in Hx. destruct (given a || given b || given c).
    - exfalso. apply bind_inv in Hx. destruct Hx as (g1 & Hx & _). unfold init_linear in Hx. apply bind_inv in Hx.
      destruct Hx as (g2 & Hx & _). eapply seq_norm; eauto.
    - cbn [bind] in Hx. eapply K; [exact P4| | |exact Hx]; reflexivity. }
  assert (GP : forall a b c d, gen_periodic rnd a b c d g = Ok (g', p) -> p_lb g' = BSeq l).
  { intros a b c d Hx. unfold gen_periodic in Hx. cbn zeta in Hx. destruct (given a || given b || given c).
    - exfalso. apply bind_inv in Hx. destruct Hx as (g1 & Hx & _). unfold init_periodic in Hx. apply bind_inv in Hx.
      destruct Hx as (g2 & Hx & _). eapply seq_norm; eauto.
    - cbn [bind] in Hx. eapply K; [exact P5| | |exact Hx]; reflexivity. }
  assert (GG : forall a b, gen_gauss rnd a b g = Ok (g', p) -> p_lb g' = BSeq l).
  { intros a b Hx. unfold gen_gauss in Hx. eapply K; [exact (P6 a b)| | |exact Hx]; reflexivity. }
  assert (GE : forall a, gen_edge rnd a g = Ok (g', p) -> p_lb g' = BSeq l).
  { intros a Hx. unfold gen_edge in Hx. eapply K; [exact (P7 a)| | |exact Hx]; reflexivity. }
  clear K K0. unfold gen_raw in H. destruct (p_cls g); destruct ga; try discriminate; eauto;
    try (unfold gen_zero, gen_random in H; injection H as <- _; auto).
Qed.

Ltac run :=
  lazy -[IZR INR Rdiv Rinv Rmult Rplus Rminus Ropp Rabs Rpower pow sqrt exp sin cos tanh PI floor Rle Rlt not
         Rlt_dec Rle_dec Req_EM_T fdiv fmul].
(** Replace a concrete generator by its fields. *)
Ltac literal g :=
  let v := eval lazy -[IZR INR Rdiv Rinv Rmult Rplus Rminus Ropp] in g in
  let E := fresh in
  assert (E : g = v) by (vm_compute; reflexivity); rewrite E; clear E.
