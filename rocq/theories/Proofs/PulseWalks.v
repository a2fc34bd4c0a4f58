(** Linear pulses, random walks and random Fourier pulses. *)
From Coq Require Import Reals Lra Lia List ZArith.
From RecordUpdate Require Import RecordUpdate.
From Verif.Model Require Import PulseGen.
From Verif.Spec Require Import Pulses.
From Verif.Lib Require Import Lists.
From Verif.Proofs Require Import PulseFacts PulseShapes.
Import ListNotations.
Set Bullet Behavior "Strict Subproofs".
Local Open Scope R_scope.

Lemma slots_eq g : tau_or g = slots g.
Proof. unfold tau_or, slots. destruct (p_tau g); auto. f_equal. unfold Rdiv. lra. Qed.

Lemma total_app a b : total (a ++ b) = total a + total b.
Proof. unfold total. induction a; cbn; lra. Qed.

(** * LIN *)
Lemma rev_last {X} (l : list X) (x : X) (t : list X) : rev l = x :: t -> l = rev t ++ [x].
Proof. intros H. rewrite <- (rev_involutive l), H. reflexivity. Qed.

Lemma linear_gen fuel rnd g ga s e :
  p_cls g = CLin -> p_lb g = BNo -> p_ub g = BNo ->
  (1 < p_n g)%nat -> length (slots g) = p_n g -> total (slots g) = p_T g ->
  start_of (slots g) (p_n g - 1) <> 0 ->
  (ga = GNone /\ p_ready g = false /\ p_start g = Some s /\ p_end g = Some e) \/
  (exists gr, ga = GLinear gr (Some s) (Some e)) ->
  exists g' p, gen_pulse fuel rnd ga g = Ok (g', p) /\ length p = p_n g /\
    forall k, (k < p_n g)%nat -> nth_error p k =
      Some (F (p_scale g * (s + (e - s) * (start_of (slots g) k / start_of (slots g) (p_n g - 1))) + p_offset g)).
Proof.
  intros Hc L U Hn Hl Ht Hs HA.
  assert (LT : exists t, rev (slots g) = t :: rev (firstn (p_n g - 1) (slots g)) /\
            p_T g - t = start_of (slots g) (p_n g - 1)).
  { destruct (rev (slots g)) as [|x r] eqn:E.
    - apply (f_equal (@length R)) in E. rewrite rev_length in E. cbn in E. lia.
    - pose proof (rev_last _ _ _ E) as E'. exists x.
      assert (Lr : length (rev r) = (p_n g - 1)%nat).
      { apply (f_equal (@length R)) in E'. rewrite app_length in E'. cbn in E'. lia. }
      assert (Ef : firstn (p_n g - 1) (slots g) = rev r).
      { rewrite E', <- Lr, firstn_app, Nat.sub_diag, firstn_all. cbn. apply app_nil_r. }
      rewrite Ef, rev_involutive. split; auto.
      unfold start_of. rewrite Ef. fold (total (rev r)). rewrite <- Ht, E', total_app. cbn. lra. }
  destruct LT as (tl & Er & Etl).
  set (d := start_of (slots g) (p_n g - 1)) in *.
  assert (I : exists g1, init_linear None None None (g <| p_start := Some s |> <| p_end := Some e |>) = Ok g1 /\
     same_frame g g1 /\ p_tau g1 = Some (slots g) /\ p_grad g1 = Some (F ((e - s) / d)) /\ p_start g1 = Some s
     /\ p_ready g1 = true).
  { set (g0 := g <| p_start := Some s |> <| p_end := Some e |>).
    assert (E0 : tau_or g0 = slots g).
    { rewrite slots_eq. unfold g0. destruct g; reflexivity. }
    assert (O0 : ordered (p_lb g0) (p_ub g0)).
    { unfold g0. destruct g. cbn in *. subst. apply no_ordered. }
    assert (N0 : p_n g0 = p_n g) by (unfold g0; destruct g; reflexivity).
    destruct (init_base_ok g0) as (tm & Eb & _).
    { intros _. rewrite E0, N0. lia. } { auto. }
    unfold init_linear. rewrite Eb. cbn [bind].
    set (g1 := g0 <| p_tau := Some (tau_or g0) |> <| p_time := tm |> <| p_ready := true |>
                        <| p_lb := nb (p_lb g0) |> <| p_ub := nb (p_ub g0) |>).
    assert (A1 : p_start g1 = Some s /\ p_end g1 = Some e /\ p_tau g1 = Some (slots g) /\ p_T g1 = p_T g).
    { rewrite <- E0. unfold g1, g0. destruct g; repeat split. }
    assert (S1 : same_frame g g1).
    { unfold g1, g0. destruct g; cbn in *; subst; repeat split. }
    assert (R1 : p_ready g1 = true) by reflexivity.
    clearbody g1. clear Eb E0 O0 N0. destruct A1 as (A1 & A2 & A3 & A4). cbn zeta. rewrite A1, A2. unfold last_tau. rewrite A3, Er. cbn [bind].
    rewrite A4. exists (g1 <| p_grad := Some (fdiv (F (e - s)) (F (p_T g - tl))) |>). split; [reflexivity|].
    assert (D : fdiv (F (e - s)) (F (p_T g - tl)) = F ((e - s) / d)).
    { rewrite Etl. cbn. destruct (Req_EM_T d 0); [contradiction|reflexivity]. }
    rewrite D. destruct g1. cbn in *. subst. repeat split; auto; apply S1. }
  destruct I as (g1 & E1 & S1 & T1 & G1 & St1 & R1).
  assert (EN : gen_raw fuel rnd ga g = linear_pulse g1).
  { unfold gen_raw. rewrite Hc. destruct HA as [(-> & Hr & Hs' & He')|(gr & ->)].
    - unfold gen_linear. cbn [given orb bind]. unfold ensure. rewrite Hr. unfold init_pulse. rewrite Hc.
      replace g with (g <| p_start := Some s |> <| p_end := Some e |>) by (destruct g; cbn in *; subst; reflexivity).
      rewrite E1. reflexivity.
    - unfold gen_linear. replace (given gr || given (Some s) || given (Some e))%bool with true by (destruct gr; reflexivity).
      assert (EE : init_linear gr (Some s) (Some e) g = init_linear None None None (g <| p_start := Some s |> <| p_end := Some e |>)).
      { clear. unfold init_linear.
        assert (K : init_base (g <| p_start := Some s |> <| p_end := Some e |>)
                    = rmap (fun g => g <| p_start := Some s |> <| p_end := Some e |>) (init_base g)).
        { unfold init_base. destruct g. cbn -[times norm_bound].
          destruct p_uses_time, p_tau; cbn -[times norm_bound]; try (destruct (times _ _ _); cbn -[norm_bound]; auto);
            destruct (norm_bound p_lb) as [lb'|]; cbn -[norm_bound]; auto; destruct (norm_bound p_ub) as [ub'|]; cbn; auto;
            destruct ub', lb'; auto; destruct (fltb _ _); auto. }
        rewrite K, bind_rmap. destruct (init_base g) as [g1|]; cbn [bind]; auto. }
      rewrite EE, E1. cbn [bind]. unfold ensure. rewrite R1. reflexivity. }
  unfold linear_pulse in EN. destruct S1 as (C1 & N1 & TT1 & Sc1 & O1 & L1 & U1).
  rewrite N1, G1, St1 in EN. destruct (p_n g) as [|n] eqn:En; [lia|].
  unfold tau_of in EN. rewrite T1 in EN. cbn [bind] in EN.
  destruct (along_ok (fun t => fmul (F (p_scale g1)) (fadd (fmul (F ((e - s) / d)) (F t)) (F s))) (S n) 0 (slots g))
    as (p & Ep & Lp & Np); [lia|].
  rewrite Ep in EN. cbn [bind] in EN.
  exists g1, (shift (F (p_offset g1)) p). split.
  { apply gen_plain; auto. congruence. }
  unfold shift. rewrite map_length. split; auto. intros k Hk. rewrite nth_error_map, (Np k Hk). cbn.
  rewrite Sc1, O1, Rplus_0_l. do 2 f_equal. unfold d. field. exact Hs.
Qed.

(** * Random walks *)
Lemma draw_range rnd i : draws rnd -> -1 <= rnd i * 2 - 1 <= 1.
Proof. intros H. specialize (H i). lra. Qed.

Lemma scaled_draw x c : -1 <= x <= 1 -> Rabs (x * c) <= Rabs c.
Proof.
  intros H. rewrite Rabs_mult. rewrite <- (Rmult_1_l (Rabs c)) at 2. apply Rmult_le_compat_r; [apply Rabs_pos|].
  apply Rabs_le. lra.
Qed.

Lemma walk1_shape rnd d : draws rnd -> forall n i a, exists v, walk1 rnd i d a n = map F v /\ length v = n /\
  (n <> 0%nat -> at_ v 0 = a) /\
  forall k, (S k < n)%nat -> Rabs (at_ v (S k) - at_ v k) <= Rabs d.
Proof.
  intros Hr. induction n as [|n IH]; intros i a.
  - exists []. repeat split; auto; try congruence. intros; lia.
  - destruct (IH (S i) (a + (rnd i * 2 - 1) * d)) as (v & E & L & H0 & H).
    exists (a :: v). cbn [walk1 map length]. rewrite E, L. repeat split; auto.
    intros [|k] Hk.
    + change (at_ (a :: v) 1) with (at_ v 0). rewrite H0 by lia. cbn [at_ nth].
      replace (a + (rnd i * 2 - 1) * d - a) with ((rnd i * 2 - 1) * d) by ring.
      apply scaled_draw. apply draw_range. auto.
    + change (at_ (a :: v) (S (S k))) with (at_ v (S k)). change (at_ (a :: v) (S k)) with (at_ v k). apply H. lia.
Qed.

Lemma walk2_shape rnd d : draws rnd -> forall n i g a, exists v, walk2 rnd i d g a n = map F v /\ length v = n /\
  (n <> 0%nat -> at_ v 0 = a) /\
  ((1 < n)%nat -> Rabs (at_ v 1 - at_ v 0 - g) <= Rabs d) /\
  forall k, (S (S k) < n)%nat -> Rabs (at_ v (S (S k)) - 2 * at_ v (S k) + at_ v k) <= Rabs d.
Proof.
  intros Hr. induction n as [|n IH]; intros i g a.
  - exists []. repeat split; auto; try congruence; intros; lia.
  - destruct (IH (S i) (g + (rnd i * 2 - 1) * d) (a + (g + (rnd i * 2 - 1) * d))) as (v & E & L & H0 & H1 & H).
    exists (a :: v). cbn [walk2 map length]. rewrite E, L. repeat split; auto.
    + intros Hn. change (at_ (a :: v) 1) with (at_ v 0). rewrite H0 by lia. change (at_ (a :: v) 0) with a.
      replace (a + (g + (rnd i * 2 - 1) * d) - a - g) with ((rnd i * 2 - 1) * d) by ring.
      apply scaled_draw. apply draw_range. auto.
    + intros [|k] Hk.
      * change (at_ (a :: v) 2) with (at_ v 1). change (at_ (a :: v) 1) with (at_ v 0). change (at_ (a :: v) 0) with a.
        specialize (H1 ltac:(lia)). rewrite H0 in * by lia.
        replace (at_ v 1 - 2 * (a + (g + (rnd i * 2 - 1) * d)) + a)
          with (at_ v 1 - (a + (g + (rnd i * 2 - 1) * d)) - (g + (rnd i * 2 - 1) * d)) by ring.
        exact H1.
      * change (at_ (a :: v) (S (S (S k)))) with (at_ v (S (S k))). change (at_ (a :: v) (S (S k))) with (at_ v (S k)).
        change (at_ (a :: v) (S k)) with (at_ v k). apply H. lia.
Qed.

Lemma at_map f v k : (k < length v)%nat -> at_ (map f v) k = f (at_ v k).
Proof.
  intros H. unfold at_. rewrite (nth_indep _ 0 (f 0)) by (rewrite map_length; auto). apply map_nth.
Qed.

Lemma ensure_same rnd g g' : ensure rnd g = Ok g' -> p_cls g <> CCrab ->
  same_frame g g' /\ p_tau g' = Some (match p_tau g with Some l => l | None => slots g end) \/ p_tau g' = None.
Proof.
  intros H Hc. unfold ensure in H. destruct (p_ready g).
  - injection H as <-. destruct (p_tau g) eqn:E; [left|right]; auto. split; [apply same_refl|auto].
  - left. assert (Z : match p_tau g with Some l => l | None => slots g end = tau_or g).
    { rewrite slots_eq. unfold slots. destruct (p_tau g); auto. }
    rewrite Z. unfold init_pulse in H. destruct (p_cls g) eqn:C; try congruence;
      try (split; [apply init_base_same; auto|];
           apply init_base_inv in H; destruct H as (tm & lb & ub & -> & _); destruct g; reflexivity);
      try (apply init_linear_same in H; tauto); try (apply init_periodic_same in H; tauto).
Qed.

(** The bounded pulse is an affine image of the raw one with factor at most 1. *)
Lemma affine g x l p : ordered (p_lb g) (p_ub g) -> tame (p_lb g) -> tame (p_ub g) ->
  apply_bounds_and_offset g (map F (x :: l)) = Ok p ->
  exists c d, 0 <= c <= 1 /\ p = map F (map (fun y => c * y + d) (x :: l)).
Proof.
  intros O T1 T2 H. destruct (bounded g x l O) as (q & E & _ & _ & _ & A). rewrite E in H. injection H as <-.
  destruct (A T1 T2) as (c & d & Hcd & ->). exists c, d. split; auto. rewrite map_map. reflexivity.
Qed.

Lemma tame_ordered_b g0 l u : ordered l u -> tame l -> tame u -> p_lb g0 = l -> p_ub g0 = u -> ordered (p_lb g0) (p_ub g0).
Proof. intros; subst; auto. Qed.

Lemma small_factor c x y : 0 <= c <= 1 -> Rabs x <= y -> Rabs (c * x) <= y.
Proof.
  intros H1 H2. rewrite Rabs_mult, (Rabs_pos_eq c) by lra. pose proof (Rabs_pos x).
  assert (c * Rabs x <= 1 * Rabs x) by (apply Rmult_le_compat_r; lra). lra.
Qed.

(** Bounds that are finite or will be made so by the initialisation. *)
Definition finite_bounds (g : pgen) : Prop := p_ready g = false \/ (tame (p_lb g) /\ tame (p_ub g)).

Lemma gen_raw_bounds fuel rnd ga g g' p : p_cls g <> CCrab -> ordered (p_lb g) (p_ub g) ->
  gen_raw fuel rnd ga g = Ok (g', p) ->
  kept (p_lb g) (p_ub g) (p_lb g') (p_ub g') /\ p_offset g' = p_offset g.
Proof.
  intros Hc O H.
  destruct (gen_raw_b fuel rnd ga (p_lb g) (p_ub g) (p_offset g) g O Hc) as (l' & u' & K & E).
  rewrite set_b_self, H in E. destruct (gen_raw fuel rnd ga (set_b BNo BNo 0 g)) as [[g1 q]|]; [|discriminate].
  cbn in E. injection E as E _. subst g'. rewrite lb_set_b, ub_set_b, off_set_b. auto.
Qed.

Lemma gen_finite fuel rnd ga g g' v p : self_init (p_cls g) -> ordered (p_lb g) (p_ub g) -> finite_bounds g ->
  gen_raw fuel rnd ga g = Ok (g', map F v) -> v <> [] -> apply_bounds_and_offset g' (map F v) = Ok p ->
  exists c d, 0 <= c <= 1 /\ p = map F (map (fun y => c * y + d) v).
Proof.
  intros SI O FB H Hne Hp. destruct v as [|x l]; [congruence|].
  destruct (gen_raw_bounds _ _ _ _ _ _ ltac:(apply SI) O H) as (K & _).
  assert (T : tame (p_lb g') /\ tame (p_ub g')).
  { destruct FB as [R1|[T1 T2]]; [eapply gen_raw_tame; eauto|].
    destruct K as [[-> ->]|[-> ->]]; [auto|].
    destruct (p_lb g) as [|[]|], (p_ub g) as [|[]|]; cbn in *; auto; contradiction. }
  destruct T as [T1 T2]. exact (affine _ _ _ _ (kept_ordered _ _ _ _ O K) T1 T2 Hp).
Qed.

Lemma walk1_gen fuel rnd d g g' p : p_cls g = CWalk1 -> draws rnd -> ordered (p_lb g) (p_ub g) -> finite_bounds g ->
  gen_pulse fuel rnd d g = Ok (g', p) -> p <> [] ->
  exists v, p = map F v /\
    (p_lb g = BNo -> p_ub g = BNo -> Rabs (at_ v 0 - p_offset g) <= Rabs (p_scale g)) /\
    forall k, (S k < length v)%nat -> Rabs (at_ v (S k) - at_ v k) <= Rabs (p_scale g' * p_maxd g').
Proof.
  intros Hc Hr O FB H Hne.
  assert (SI : self_init (p_cls g)) by (rewrite Hc; repeat split; discriminate).
  rewrite gen_pulse_std in H by apply SI.
  apply bind_inv in H. destruct H as ([g1 raw] & E1 & H). apply bind_inv in H. destruct H as (q & E2 & H).
  injection H as <- <-. pose proof E1 as E1'.
  unfold gen_raw in E1. rewrite Hc in E1.
  assert (Z : exists m, gen_walk1 rnd m g = Ok (g1, raw)) by (destruct d; try discriminate; eauto).
  clear E1. destruct Z as (m & Z). unfold gen_walk1 in Z. cbn zeta in Z.
  apply bind_inv in Z. destruct Z as (g2 & E3 & Z). unfold walk1_pulse in Z.
  apply bind_inv in Z. destruct Z as (tau & E4 & Z). injection Z as <- <-.
  assert (Sc : p_scale g2 = p_scale g).
  { apply ensure_same in E3; [|destruct g; cbn in *; subst; discriminate].
    destruct E3 as [(S & _)|E3]; [destruct g; apply S|].
    unfold tau_of in E4. rewrite E3 in E4. discriminate. }
  destruct (walk1_shape rnd (p_maxd g2 * p_scale g2) Hr (length tau) 1 (p_scale g2 * (rnd 0%nat * 2 - 1)))
    as (v & Ev & Lv & V0 & V). rewrite Ev in *.
  assert (Hv : v <> []).
  { intros ->. unfold apply_bounds_and_offset in E2. destruct (p_lb g2), (p_ub g2); cbn in E2; try discriminate. injection E2 as <-. auto. }
  destruct (gen_finite _ _ _ _ _ _ _ SI O FB E1' Hv E2) as (c & e & Hce & ->).
  eexists. split; [reflexivity|]. rewrite map_length. split.
  - intros L U. destruct (gen_raw_bounds _ _ _ _ _ _ ltac:(apply SI) O E1') as (K & Of).
    rewrite L, U in K. assert (p_lb g2 = BNo /\ p_ub g2 = BNo) as [L2 U2] by (destruct K as [[-> ->]|[-> ->]]; auto).
    unfold apply_bounds_and_offset in E2. rewrite L2, U2, shift_F in E2. injection E2 as E2.
    destruct v as [|x v]; [congruence|]. cbn in E2. injection E2 as E2 _. cbn [map at_ nth].
    rewrite <- E2, Of. rewrite at_map in V0 || idtac. specialize (V0 ltac:(cbn in Lv; lia)). cbn in V0. subst x.
    replace (p_scale g2 * (rnd 0%nat * 2 - 1) + p_offset g - p_offset g) with ((rnd 0%nat * 2 - 1) * p_scale g) by (rewrite Sc; ring).
    apply scaled_draw. apply draw_range. auto.
  - intros k Hk. rewrite !at_map by lia.
    replace (c * at_ v (S k) + e - (c * at_ v k + e)) with (c * (at_ v (S k) - at_ v k)) by ring.
    apply small_factor; auto. rewrite Rmult_comm. apply V. lia.
Qed.

Lemma walk2_gen fuel rnd d g g' p : p_cls g = CWalk2 -> draws rnd -> ordered (p_lb g) (p_ub g) -> finite_bounds g ->
  gen_pulse fuel rnd d g = Ok (g', p) -> p <> [] ->
  exists v, p = map F v /\
    (p_lb g = BNo -> p_ub g = BNo -> Rabs (at_ v 0 - p_offset g) <= Rabs (p_scale g)) /\
    ((1 < length v)%nat -> Rabs (at_ v 1 - at_ v 0) <= Rabs (p_maxd2 g')) /\
    forall k, (S (S k) < length v)%nat -> Rabs (at_ v (S (S k)) - 2 * at_ v (S k) + at_ v k) <= Rabs (p_maxd2 g').
Proof.
  intros Hc Hr O FB H Hne.
  assert (SI : self_init (p_cls g)) by (rewrite Hc; repeat split; discriminate).
  rewrite gen_pulse_std in H by apply SI.
  apply bind_inv in H. destruct H as ([g1 raw] & E1 & H). apply bind_inv in H. destruct H as (q & E2 & H).
  injection H as <- <-. pose proof E1 as E1'.
  unfold gen_raw in E1. rewrite Hc in E1.
  assert (Z : exists m, gen_walk2 rnd m g = Ok (g1, raw)) by (destruct d; try discriminate; eauto).
  clear E1. destruct Z as (m & Z). unfold gen_walk2 in Z. cbn zeta in Z.
  apply bind_inv in Z. destruct Z as (g2 & E3 & Z). unfold walk2_pulse in Z.
  apply bind_inv in Z. destruct Z as (tau & E4 & Z). injection Z as <- <-.
  assert (Sc : p_scale g2 = p_scale g).
  { apply ensure_same in E3; [|destruct g; cbn in *; subst; discriminate].
    destruct E3 as [(S & _)|E3]; [destruct g; apply S|].
    unfold tau_of in E4. rewrite E3 in E4. discriminate. }
  destruct (walk2_shape rnd (p_maxd2 g2) Hr (length tau) 1 0 (p_scale g2 * (rnd 0%nat * 2 - 1)))
    as (v & Ev & Lv & V0 & V1 & V). rewrite Ev in *.
  assert (Hv : v <> []).
  { intros ->. unfold apply_bounds_and_offset in E2. destruct (p_lb g2), (p_ub g2); cbn in E2; try discriminate. injection E2 as <-. auto. }
  destruct (gen_finite _ _ _ _ _ _ _ SI O FB E1' Hv E2) as (c & e & Hce & ->).
  eexists. split; [reflexivity|]. rewrite map_length. repeat split.
  - intros L U. destruct (gen_raw_bounds _ _ _ _ _ _ ltac:(apply SI) O E1') as (K & Of).
    rewrite L, U in K. assert (p_lb g2 = BNo /\ p_ub g2 = BNo) as [L2 U2] by (destruct K as [[-> ->]|[-> ->]]; auto).
    unfold apply_bounds_and_offset in E2. rewrite L2, U2, shift_F in E2. injection E2 as E2.
    destruct v as [|x v]; [congruence|]. cbn in E2. injection E2 as E2 _. cbn [map at_ nth].
    rewrite <- E2, Of. specialize (V0 ltac:(cbn in Lv; lia)). cbn in V0. subst x.
    replace (p_scale g2 * (rnd 0%nat * 2 - 1) + p_offset g - p_offset g) with ((rnd 0%nat * 2 - 1) * p_scale g) by (rewrite Sc; ring).
    apply scaled_draw. apply draw_range. auto.
  - intros H. rewrite !at_map by lia.
    replace (c * at_ v 1 + e - (c * at_ v 0 + e)) with (c * (at_ v 1 - at_ v 0 - 0)) by ring.
    apply small_factor; auto. apply V1. lia.
  - intros k Hk. rewrite !at_map by lia.
    replace (c * at_ v (S (S k)) + e - 2 * (c * at_ v (S k) + e) + (c * at_ v k + e))
      with (c * (at_ v (S (S k)) - 2 * at_ v (S k) + at_ v k)) by ring.
    apply small_factor; auto. apply V. lia.
Qed.

(** * RNDFOURIER *)
Lemma wavelens_ok m : forall N w, w <= m * 2 ^ N -> 0 < m ->
  exists K, (forall fuel, (K <= fuel)%nat -> wavelens fuel w m = Ok (map (fun i => w / 2 ^ i) (range K))) /\
    (forall i, (i < K)%nat -> m < w / 2 ^ i) /\ w / 2 ^ K <= m.
Proof.
  induction N as [|N IH]; intros w Hw Hm.
  - exists 0%nat. split; [|split].
    + intros fuel _. unfold wavelens. destruct fuel; destruct (Rlt_dec m w); auto; cbn in Hw; lra.
    + intros; lia.
    + cbn in *. lra.
  - destruct (Rlt_dec m w) as [Hlt|Hge].
    + destruct (IH (w / 2)) as (K & E & H1 & H2); auto.
      { cbn in Hw. lra. }
      exists (S K). split; [|split].
      * intros [|fuel] Hf; [lia|]. cbn [wavelens]. destruct (Rlt_dec m w); [|lra].
        rewrite E by lia. cbn [bind]. f_equal. unfold range. cbn [seq map]. f_equal; [cbn; lra|].
        rewrite <- seq_shift, map_map. apply map_ext. intros i. cbn. field. apply pow_nonzero. lra.
      * intros [|i] Hi; [cbn; lra|]. specialize (H1 i ltac:(lia)).
        replace (w / 2 ^ S i) with (w / 2 / 2 ^ i); auto. cbn. field. apply pow_nonzero. lra.
      * replace (w / 2 ^ S K) with (w / 2 / 2 ^ K); auto. cbn. field. apply pow_nonzero. lra.
    + exists 0%nat. split; [|split].
      * intros fuel _. unfold wavelens. destruct fuel; destruct (Rlt_dec m w); auto; lra.
      * intros; lia.
      * cbn. lra.
Qed.

Lemma wavelens_any w m : 0 < m ->
  exists K, (forall fuel, (K <= fuel)%nat -> wavelens fuel w m = Ok (map (fun i => w / 2 ^ i) (range K))) /\
    (forall i, (i < K)%nat -> m < w / 2 ^ i) /\ w / 2 ^ K <= m.
Proof.
  intros Hm.
  destruct (Pow_x_infinity 2) with (b := Rabs w / m) as (N & HN).
  { rewrite Rabs_pos_eq; lra. }
  apply (wavelens_ok m N w); auto.
  specialize (HN N (le_n N)). rewrite Rabs_pos_eq in HN by (left; apply pow_lt; lra).
  apply Rge_le in HN. apply Rmult_le_compat_l with (r := m) in HN; [|lra].
  unfold Rdiv in HN. replace (m * (Rabs w * / m)) with (Rabs w) in HN by (field; lra).
  pose proof (Rle_abs w). lra.
Qed.

(** The sum of the waves at time [t]. *)
Definition wave_sum (ws : list (R * R * R)) (t : R) : R :=
  fold_right Rplus 0 (map (fun '(a, wl, ph) => a * sin (2 * PI * t / wl + ph)) ws).

Lemma zip_map (f : flt -> flt -> flt) {X} (a b : X -> flt) l : zip f (map a l) (map b l) = map (fun x => f (a x) (b x)) l.
Proof. induction l; cbn; congruence. Qed.

Lemma add_waves_ok ws : Forall (fun w => snd (fst w) <> 0) ws -> forall ts s0,
  add_waves ws ts (map (fun t => F (s0 t)) ts) = Ok (map (fun t => F (s0 t + wave_sum ws t)) ts).
Proof.
  induction ws as [|[[a wl] ph] ws IH]; intros HF ts s0.
  - cbn. f_equal. apply map_ext. intros. unfold wave_sum. cbn. f_equal. lra.
  - inversion HF as [|? ? Hw HF']; subst. cbn [fst snd] in Hw. cbn [add_waves].
    assert (E : iadd (map (fun t => F (s0 t)) ts) (wave a wl ph ts)
                = Ok (map (fun t => F (s0 t + a * sin (2 * PI * t / wl + ph))) ts)).
    { unfold iadd, wave. rewrite !map_length, Nat.eqb_refl, zip_map. f_equal. apply map_ext. intros t. cbn.
      destruct (Req_EM_T wl 0); [contradiction|]. reflexivity. }
    rewrite E. cbn [bind]. rewrite (IH HF' ts (fun t => s0 t + a * sin (2 * PI * t / wl + ph))).
    f_equal. apply map_ext. intros t. unfold wave_sum. cbn. f_equal. lra.
Qed.

Lemma wave_sum_bound c ws t : Forall (fun w => Rabs (fst (fst w)) <= c) ws -> Rabs (wave_sum ws t) <= c * INR (length ws).
Proof.
  induction ws as [|[[a wl] ph] ws IH]; intros HF.
  - unfold wave_sum. cbn. rewrite Rabs_R0. lra.
  - inversion HF as [|? ? Ha HF']; subst. cbn [fst] in Ha. specialize (IH HF').
    unfold wave_sum in *. cbn [map fold_right]. cbn [length]. rewrite S_INR.
    eapply Rle_trans; [apply Rabs_triang|].
    assert (Rabs (a * sin (2 * PI * t / wl + ph)) <= Rabs a).
    { rewrite Rmult_comm. apply scaled_draw. apply SIN_bound. }
    lra.
Qed.


(** * Constructed generators *)
Lemma fold_keep {X} (f : pgen -> X) : (forall g a, f (setattr g a) = f g) ->
  forall ats g, f (fold_left setattr ats g) = f g.
Proof. intros H. induction ats as [|a ats IH]; intros g; cbn; auto. rewrite IH. apply H. Qed.
Lemma apply_keep {X} (f : pgen -> X) : (forall g a, f (setattr g a) = f g) -> (forall g ps, f (g <| p_params := ps |>) = f g) ->
  forall ps g, f (apply_params ps g) = f g.
Proof.
  intros H1 H2 ps g. unfold apply_params. destruct ps as [|a ps].
  - destruct (p_params g) as [|a ps]; auto. rewrite fold_keep by auto. apply H2.
  - rewrite fold_keep by auto. apply H2.
Qed.
Lemma set_cls g a : p_cls (setattr g a) = p_cls g. Proof. destruct a; reflexivity. Qed.
Lemma set_ready g a : p_ready (setattr g a) = p_ready g. Proof. destruct a; reflexivity. Qed.
Lemma set_uses g a : p_uses_time (setattr g a) = p_uses_time g. Proof. destruct a; reflexivity. Qed.
Lemma apply_cls ps g : p_cls (apply_params ps g) = p_cls g.
Proof. apply apply_keep; [apply set_cls|reflexivity]. Qed.
Lemma apply_ready ps g : p_ready (apply_params ps g) = p_ready g.
Proof. apply apply_keep; [apply set_ready|reflexivity]. Qed.
Lemma apply_uses ps g : p_uses_time (apply_params ps g) = p_uses_time g.
Proof. apply apply_keep; [apply set_uses|reflexivity]. Qed.

Lemma base_ready g : p_ready (reset_base g) = false.
Proof. unfold reset_base. rewrite apply_ready. destruct (p_parent g); reflexivity. Qed.
Lemma base_cls g : p_cls (reset_base g) = p_cls g.
Proof. unfold reset_base. rewrite apply_cls. destruct (p_parent g); reflexivity. Qed.

Definition uses c := match c with CFourier | CWaves | CGauss | CEdge | CCrab => true | _ => false end.

Lemma reset_facts g : p_cls (reset g) = p_cls g /\ p_ready (reset g) = false /\
  (uses (p_cls g) = true -> p_uses_time (reset g) = true).
Proof.
  pose proof (base_cls g) as B1. pose proof (base_ready g) as B2.
  unfold reset, reset_crab. generalize dependent (reset_base g). intros b B1 B2.
  assert (A : forall c x, p_cls x = c -> p_ready x = false -> (uses c = true -> p_uses_time x = true) ->
     p_cls (apply_params [] x) = c /\ p_ready (apply_params [] x) = false /\ (uses c = true -> p_uses_time (apply_params [] x) = true)).
  { intros c x. rewrite apply_cls, apply_ready, apply_uses. auto. }
  destruct (p_cls g) eqn:E; cbn zeta;
    lazymatch goal with
    | |- p_cls (apply_params [] ?x) = ?c /\ _ => apply (A c x); destruct b; cbn in *; auto; discriminate
    | |- _ => idtac
    end.
  - repeat split; auto; discriminate.
  - match goal with |- context [apply_params [] ?x] => destruct (A CCrab x) as (A1 & A2 & A3);
      [destruct b; cbn in *; auto|destruct b; cbn in *; auto|destruct b; cbn in *; auto|];
      generalize dependent (apply_params [] x) end.
    intros x A1 A2 A3; destruct x; cbn in *; auto.
Qed.
Lemma new_facts c d ps : p_cls (new_gen c d ps) = c /\ p_ready (new_gen c d ps) = false /\
  (uses c = true -> p_uses_time (new_gen c d ps) = true).
Proof. exact (reset_facts (blank c d ps)). Qed.

Lemma fresh_facts c g : fresh c g -> p_cls g = c /\ p_ready g = false /\ (uses c = true -> p_uses_time g = true).
Proof.
  intros (d & ps & ats & ->). rewrite (fold_keep p_cls set_cls), (fold_keep p_ready set_ready),
    (fold_keep p_uses_time set_uses). apply new_facts.
Qed.

Lemma combine_map_range {X} (f : nat -> X) n : combine (range n) (map f (range n)) = map (fun i => (i, f i)) (range n).
Proof. generalize (range n). induction l; cbn; congruence. Qed.

Lemma fourier_waves_eq rnd s w K :
  fourier_waves rnd s (map w (range K)) =
  map (fun i => (sqrt 8 * s / INR K * (rnd (2 * i)%nat * 2 - 1), w i, rnd (2 * i + 1)%nat * PI / 2)) (range K).
Proof.
  unfold fourier_waves. rewrite map_length. unfold range at 1 2 3. rewrite seq_length. fold (range K).
  rewrite combine_map_range, map_map. reflexivity.
Qed.

Lemma fourier_gen rnd g :
  fresh CFourier g -> draws rnd -> p_lb g = BNo -> p_ub g = BNo ->
  length (slots g) = p_n g -> 0 < p_minwl g <= p_T g ->
  exists K amp ph,
    (0 < K)%nat /\ 2 * p_T g / 2 ^ K <= p_minwl g /\ (forall i, (i < K)%nat -> p_minwl g < 2 * p_T g / 2 ^ i) /\
    (forall i, (i < K)%nat -> Rabs (amp i) <= sqrt 8 * Rabs (p_scale g) / INR K /\ 0 <= ph i < PI / 2) /\
    (forall i, amp i = sqrt 8 * p_scale g / INR K * (rnd (2 * i)%nat * 2 - 1) /\ ph i = rnd (2 * i + 1)%nat * PI / 2) /\
    exists g' p, (forall fuel, (K <= fuel)%nat -> gen_pulse fuel rnd GNone g = Ok (g', p)) /\ length p = p_n g /\
      forall k, (k < p_n g)%nat -> exists x, nth_error p k = Some (F (x + p_offset g)) /\
        x = fold_right Rplus 0 (map (fun i => amp i * sin (2 * PI * start_of (slots g) k / (2 * p_T g / 2 ^ i) + ph i)) (range K)) /\
        Rabs x <= sqrt 8 * Rabs (p_scale g).
Proof.
  intros Hf Hr L U Hl Hm. destruct (fresh_facts _ _ Hf) as (Hc & Hrd & Hu). specialize (Hu eq_refl).
  destruct (wavelens_any (2 * p_T g) (p_minwl g)) as (K & HW & HK1 & HK2); [lra|].
  assert (HK : (0 < K)%nat).
  { destruct K; [|lia]. cbn in HK2. lra. }
  assert (IK : 0 < INR K) by (apply lt_0_INR; auto).
  set (amp := fun i => sqrt 8 * p_scale g / INR K * (rnd (2 * i)%nat * 2 - 1)).
  set (ph := fun i => rnd (2 * i + 1)%nat * PI / 2).
  exists K, amp, ph. split; auto. split; auto. split; auto.
  assert (Ha : forall i, Rabs (amp i) <= sqrt 8 * Rabs (p_scale g) / INR K).
  { intros i. unfold amp. rewrite Rmult_comm. eapply Rle_trans; [apply scaled_draw, draw_range; auto|].
    unfold Rdiv. rewrite !Rabs_mult, Rabs_inv, (Rabs_pos_eq (sqrt 8)) by apply sqrt_pos. rewrite (Rabs_pos_eq (INR K)) by lra. lra. }
  split.
  { intros i _. split; auto. unfold ph. pose proof PI_RGT_0. specialize (Hr (2 * i + 1)%nat).
    assert (0 <= rnd (2 * i + 1)%nat * PI) by (apply Rmult_le_pos; lra).
    assert (rnd (2 * i + 1)%nat * PI < 1 * PI) by (apply Rmult_lt_compat_r; lra). lra. }
  split; [intros i; split; reflexivity|].
  destruct (init_base_ok g) as (tm & Eb & Et).
  { intros _. rewrite slots_eq, Hl. lia. } { rewrite L, U. apply no_ordered. }
  rewrite Hu in Et. destruct Et as (ts & Ets & ->).
  destruct (times_inv _ _ _ _ Ets) as (Lts & Nts).
  set (g1 := g <| p_tau := Some (tau_or g) |> <| p_time := Some ts |> <| p_ready := true |>
               <| p_lb := nb (p_lb g) |> <| p_ub := nb (p_ub g) |>) in *.
  set (ws := map (fun i => (amp i, 2 * p_T g / 2 ^ i, ph i)) (range K)).
  exists g1, (map (fun t => F (wave_sum ws t + p_offset g)) ts).
  split; [|split].
  - intros fuel Hfu.
    assert (ER : gen_raw fuel rnd GNone g = Ok (g1, map (fun t => F (wave_sum ws t)) ts)).
    { unfold gen_raw. rewrite Hc. unfold gen_fourier. cbn [or_keep].
      replace (g <| p_minwl := p_minwl g |>) with g by (destruct g; reflexivity).
      assert (Rltb (p_T g) (p_minwl g) = false) as ->.
      { unfold Rltb. destruct (Rlt_dec (p_T g) (p_minwl g)); auto; lra. }
      unfold ensure. rewrite Hrd. unfold init_pulse. rewrite Hc, Eb. cbn [bind]. fold g1.
      unfold fourier_pulse, tau_of, time_of.
      assert (p_tau g1 = Some (tau_or g) /\ p_time g1 = Some ts /\ p_T g1 = p_T g /\ p_minwl g1 = p_minwl g /\ p_scale g1 = p_scale g)
        as (-> & -> & -> & -> & ->) by (repeat split; reflexivity).
      cbn [bind]. rewrite (HW fuel Hfu). cbn [bind].
      assert (ENE : forall (X : Type) (a b : X), match map (fun i => 2 * p_T g / 2 ^ i) (range K) with [] => a | _ => b end = b).
      { intros. destruct K; [lia|]. reflexivity. }
      rewrite ENE. cbn [bind]. rewrite fourier_waves_eq. fold amp ph. fold ws.
      assert (Er : repeat (F 0) (length (tau_or g)) = map (fun t => F ((fun _ => 0) t)) ts).
      { rewrite slots_eq, Hl, <- Lts. clear. induction ts; cbn; congruence. }
      rewrite Er, add_waves_ok.
      - cbn [bind]. do 2 f_equal. apply map_ext. intros. cbn beta. rewrite Rplus_0_l. reflexivity.
      - unfold ws. apply Forall_forall. intros w Hw. apply in_map_iff in Hw. destruct Hw as (i & <- & _). cbn [fst snd].
        assert (0 < 2 ^ i) by (apply pow_lt; lra). apply Rgt_not_eq. unfold Rdiv. apply Rmult_lt_0_compat; [lra|].
        apply Rinv_0_lt_compat. auto. }
    assert (NC : p_cls g <> CCrab) by (rewrite Hc; discriminate).
    rewrite (gen_plain _ _ _ _ _ _ NC ER).
    + unfold shift. rewrite map_map. reflexivity.
    + change (p_lb g1) with (nb (p_lb g)). rewrite L. reflexivity.
    + change (p_ub g1) with (nb (p_ub g)). rewrite U. reflexivity.
  - rewrite map_length. auto.
  - intros k Hk. exists (wave_sum ws (start_of (slots g) k)).
    rewrite nth_error_map, Nts, Rplus_0_l, slots_eq by auto. split; [reflexivity|]. split.
    + unfold wave_sum, ws. rewrite map_map. reflexivity.
    + eapply Rle_trans; [apply (wave_sum_bound (sqrt 8 * Rabs (p_scale g) / INR K))|].
      * unfold ws. apply Forall_forall. intros w Hw. apply in_map_iff in Hw. destruct Hw as (i & <- & _). cbn [fst]. apply Ha.
      * unfold ws. rewrite map_length. unfold range. rewrite seq_length. right. field. lra.
Qed.
