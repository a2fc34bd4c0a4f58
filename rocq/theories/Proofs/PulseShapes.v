(** The shape of the pulses of the individual generators. *)
From Coq Require Import Reals Lra Lia List ZArith.
From RecordUpdate Require Import RecordUpdate.
From Verif.Model Require Import PulseGen.
From Verif.Spec Require Import Pulses.
From Verif.Lib Require Import Lists.
From Verif.Proofs Require Import PulseFacts.
Import ListNotations.
Set Bullet Behavior "Strict Subproofs".
Local Open Scope R_scope.

(** * Loops over the timeslots *)
Lemma start_S x tau k : start_of (x :: tau) (S k) = x + start_of tau k.
Proof. reflexivity. Qed.

Lemma along_ok f : forall n t tau, (n <= length tau)%nat ->
  exists p, along f t tau n = Ok p /\ length p = n /\
    forall k, (k < n)%nat -> nth_error p k = Some (f (t + start_of tau k)).
Proof.
  induction n as [|n IH]; intros t tau H.
  - exists []. split; [reflexivity|]. split; [reflexivity|]. intros; lia.
  - destruct tau as [|x tau]; [cbn in H; lia|]. cbn in H.
    destruct (IH (t + x) tau ltac:(lia)) as (p & E & L & N).
    exists (f t :: p). cbn [along]. rewrite E. cbn. repeat split; auto.
    intros [|k] Hk; cbn.
    + unfold start_of. cbn. do 2 f_equal. lra.
    + rewrite N by lia. unfold start_of. cbn. do 2 f_equal. lra.
Qed.

Lemma along_inv f : forall n t tau p, along f t tau n = Ok p ->
  (n <= length tau)%nat /\ length p = n /\
    forall k, (k < n)%nat -> nth_error p k = Some (f (t + start_of tau k)).
Proof.
  intros n t tau p H.
  assert (L : (n <= length tau)%nat).
  { revert t tau p H. induction n as [|n IH]; intros t tau p H; [lia|].
    destruct tau; cbn in H; [discriminate|]. apply bind_inv in H. destruct H as (q & E & _).
    apply IH in E. cbn. lia. }
  split; auto. destruct (along_ok f n t tau L) as (q & E & R1). rewrite E in H. injection H as <-. auto.
Qed.

Lemma times_ok : forall n t tau, (n <= S (length tau))%nat ->
  exists ts, times t tau n = Ok ts /\ length ts = n /\
    forall k, (k < n)%nat -> nth_error ts k = Some (t + start_of tau k).
Proof.
  induction n as [|n IH]; intros t tau H.
  - exists []. split; [reflexivity|]. split; [reflexivity|]. intros; lia.
  - destruct n as [|n].
    + exists [t]. cbn. repeat split. intros [|k] Hk; [|lia]. cbn. unfold start_of. cbn. f_equal. lra.
    + destruct tau as [|x tau]; [cbn in H; lia|]. cbn [length] in H.
      destruct (IH (t + x) tau ltac:(lia)) as (ts & E & L & N).
      exists (t :: ts). change (times t (x :: tau) (S (S n))) with (bind (times (t + x) tau (S n)) (fun r => Ok (t :: r))).
      rewrite E. cbn. repeat split; auto.
      intros [|k] Hk; cbn.
      * unfold start_of. cbn. f_equal. lra.
      * rewrite N by lia. unfold start_of. cbn. f_equal. lra.
Qed.

Lemma times_inv n t tau ts : times t tau n = Ok ts ->
  length ts = n /\ forall k, (k < n)%nat -> nth_error ts k = Some (t + start_of tau k).
Proof.
  intros H.
  assert (L : (n <= S (length tau))%nat).
  { revert t tau ts H. induction n as [|n IH]; intros t tau ts H; [lia|].
    destruct n; [lia|].
    destruct tau; [discriminate|]. change (bind (times (t + r) tau (S n)) (fun q => Ok (t :: q)) = Ok ts) in H.
    apply bind_inv in H. destruct H as (q & E & _).
    apply IH in E. cbn. lia. }
  destruct (times_ok n t tau L) as (q & E & R1). rewrite E in H. injection H as <-. auto.
Qed.

(** * Floor *)
Lemma floor_eq x (n : Z) : IZR n <= x < IZR n + 1 -> floor x = IZR n.
Proof.
  intros H. unfold floor, Int_part. f_equal.
  assert (up x = (n + 1)%Z); [|lia]. symmetry. apply tech_up; rewrite plus_IZR; lra.
Qed.

Lemma sin_period_Z x (n : Z) : sin (x + 2 * IZR n * PI) = sin x.
Proof.
  destruct (Z_le_gt_dec 0 n).
  - rewrite <- (Z2Nat.id n) by lia. rewrite <- INR_IZR_INZ. apply sin_period.
  - rewrite <- (sin_period (x + 2 * IZR n * PI) (Z.to_nat (- n))). f_equal.
    rewrite INR_IZR_INZ, Z2Nat.id by lia. rewrite opp_IZR. ring.
Qed.

(** * Periodic waveforms *)
Lemma wave_cycle c freq phase t (n : Z) r :
  is_periodic c = true -> 0 <= r < 1 -> freq * t + phase / (2 * PI) = IZR n + r ->
  periodic_value c freq phase t = cycle c r.
Proof.
  intros Hc Hr E.
  pose proof PI_RGT_0 as Hpi.
  assert (Ex : (2 * PI * freq * t + phase) / (2 * PI) = IZR n + r).
  { rewrite <- E. field. lra. }
  assert (Ep : 2 * PI * freq * t + phase = 2 * PI * (IZR n + r)).
  { rewrite <- Ex. field. lra. }
  destruct c; try discriminate; unfold periodic_value, cycle.
  - rewrite Ep. replace (2 * PI * (IZR n + r)) with (2 * PI * r + 2 * IZR n * PI) by ring.
    rewrite sin_period_Z. reflexivity.
  - rewrite Ex. rewrite (floor_eq (IZR n + r) n) by lra.
    destruct (Rlt_dec r (/ 2)).
    + rewrite (floor_eq _ (2 * n)) by (rewrite mult_IZR; lra). rewrite mult_IZR. lra.
    + rewrite (floor_eq _ (2 * n + 1)) by (rewrite plus_IZR, mult_IZR; lra). rewrite plus_IZR, mult_IZR. lra.
  - rewrite Ex. destruct (Rlt_dec r (/ 2)).
    + rewrite (floor_eq _ n) by lra. lra.
    + rewrite (floor_eq _ (n + 1)) by (rewrite plus_IZR; lra). rewrite plus_IZR. lra.
  - assert (Ex' : (2 * PI * freq * t + phase + PI / 2) / (2 * PI) = IZR n + (r + / 4)).
    { rewrite Ep. field. lra. }
    rewrite Ex'.
    destruct (Rle_dec r (/ 4)) as [H1|H1].
    + destruct (Req_dec r (/ 4)) as [->|H2].
      * rewrite (floor_eq _ (n + 1)) by (rewrite plus_IZR; lra). rewrite plus_IZR.
        rewrite Rabs_left1; lra.
      * rewrite (floor_eq _ n) by lra. rewrite Rabs_pos_eq; lra.
    + destruct (Rle_dec r (3 / 4)) as [H2|H2].
      * rewrite (floor_eq _ (n + 1)) by (rewrite plus_IZR; lra). rewrite plus_IZR.
        rewrite Rabs_left1; lra.
      * rewrite (floor_eq _ (n + 1)) by (rewrite plus_IZR; lra). rewrite plus_IZR.
        rewrite Rabs_pos_eq; lra.
Qed.

Lemma cycle_range c r : 0 <= r < 1 -> -1 <= cycle c r <= 1.
Proof.
  intros H. destruct c; cbn; try apply SIN_bound.
  - destruct (Rlt_dec r (/ 2)); lra.
  - destruct (Rlt_dec r (/ 2)); lra.
  - destruct (Rle_dec r (/ 4)); [lra|]. destruct (Rle_dec r (3 / 4)); lra.
Qed.

Lemma cycle_of x : exists (n : Z) r, x = IZR n + r /\ 0 <= r < 1.
Proof.
  exists (Int_part x), (frac_part x). split; [unfold frac_part; ring|]. destruct (base_fp x). lra.
Qed.

(** * What initialisation changes *)
Definition tau_or (g : pgen) : list R :=
  match p_tau g with Some l => l | None => repeat (1 * p_T g / INR (p_n g)) (p_n g) end.

Lemma init_base_inv g g' : init_base g = Ok g' ->
  exists tm lb ub,
    g' = g <| p_tau := Some (tau_or g) |> <| p_time := tm |> <| p_ready := true |> <| p_lb := lb |> <| p_ub := ub |> /\
    (if p_uses_time g then exists ts, times 0 (tau_or g) (p_n g) = Ok ts /\ tm = Some ts else tm = p_time g) /\
    norm_bound (p_lb g) = Ok lb /\ norm_bound (p_ub g) = Ok ub.
Proof.
  intros H. unfold init_base in H. unfold tau_or.
  apply bind_inv in H; destruct H as (g1 & E1 & H).
  assert (Z : exists tm, g1 = g <| p_tau := Some (tau_or g) |> <| p_time := tm |> /\
     (if p_uses_time g then exists ts, times 0 (tau_or g) (p_n g) = Ok ts /\ tm = Some ts else tm = p_time g)).
  { clear H. unfold tau_or. destruct g. cbn -[times Rmult Rdiv] in *. destruct p_uses_time.
    - destruct p_tau; cbn -[times Rmult Rdiv] in *; apply bind_inv in E1; destruct E1 as (ts & E & E1);
        injection E1 as <-; exists (Some ts); split; auto; eexists; eauto.
    - exists p_time. destruct p_tau; injection E1 as <-; auto. }
  destruct Z as (tm & -> & Ht).
  apply bind_inv in H; destruct H as (lb & El & H).
  apply bind_inv in H; destruct H as (ub & Eu & H).
  exists tm, lb, ub. unfold tau_or in *. destruct g; cbn -[times norm_bound Rmult Rdiv] in *.
  destruct ub, lb; try (injection H as <-; repeat split; auto).
  destruct (fltb x x0); [discriminate|]. injection H as <-; repeat split; auto.
Qed.

Lemma init_base_ok g : (p_uses_time g = true -> (p_n g <= S (length (tau_or g)))%nat) ->
  ordered (p_lb g) (p_ub g) ->
  exists tm,
    init_base g = Ok (g <| p_tau := Some (tau_or g) |> <| p_time := tm |> <| p_ready := true |>
                        <| p_lb := nb (p_lb g) |> <| p_ub := nb (p_ub g) |>) /\
    (if p_uses_time g then exists ts, times 0 (tau_or g) (p_n g) = Ok ts /\ tm = Some ts else tm = p_time g).
Proof.
  intros HT O. pose proof (nb_ordered _ _ O) as NO. destruct O as (Ol & Ou & _).
  pose proof (nb_usable _ (or_introl Ol)) as El. pose proof (nb_usable _ (or_intror Ou)) as Eu.
  unfold init_base, tau_or in *. destruct g; cbn -[times norm_bound nb Rmult Rdiv] in *.
  destruct p_uses_time.
  - destruct (times_ok p_n 0 (match p_tau with Some l => l | None => repeat (1 * p_T / INR p_n) p_n end) (HT eq_refl)) as (ts & E & _).
    exists (Some ts). split; [|eauto].
    destruct p_tau; cbn -[times norm_bound nb Rmult Rdiv] in *; rewrite E; cbn -[times norm_bound nb Rmult Rdiv];
      rewrite El; cbn -[times norm_bound nb Rmult Rdiv]; rewrite Eu; cbn -[times norm_bound nb Rmult Rdiv];
      destruct (nb p_ub), (nb p_lb); auto; rewrite NO; auto.
  - exists p_time. split; auto.
    destruct p_tau; cbn -[times norm_bound nb Rmult Rdiv] in *;
      rewrite El; cbn -[times norm_bound nb Rmult Rdiv]; rewrite Eu; cbn -[times norm_bound nb Rmult Rdiv];
      destruct (nb p_ub), (nb p_lb); auto; rewrite NO; auto.
Qed.

(** Attributes no call of init_pulse changes. *)
Definition same_frame (g g' : pgen) : Prop :=
  p_cls g' = p_cls g /\ p_n g' = p_n g /\ p_T g' = p_T g /\ p_scale g' = p_scale g /\ p_offset g' = p_offset g /\
  (p_lb g = BNo -> p_lb g' = BNo) /\ (p_ub g = BNo -> p_ub g' = BNo).
Lemma same_refl g : same_frame g g.
Proof. repeat split; auto. Qed.
Lemma same_trans a b c : same_frame a b -> same_frame b c -> same_frame a c.
Proof. unfold same_frame. intuition congruence. Qed.

Lemma init_base_same g g' : init_base g = Ok g' -> same_frame g g'.
Proof.
  intros H. apply init_base_inv in H. destruct H as (tm & lb & ub & -> & _ & El & Eu).
  destruct g; cbn in *. unfold same_frame. cbn. repeat split; auto; intros ->; cbn in *; congruence.
Qed.

Lemma init_periodic_same a b c d g g' : init_periodic a b c d g = Ok g' ->
  same_frame g g' /\ p_tau g' = Some (tau_or g) /\ p_ready g' = true /\ p_freq g' <> None.
Proof.
  intros H. unfold init_periodic in H. apply bind_inv in H. destruct H as (g1 & E1 & H).
  pose proof (init_base_same _ _ E1) as S1. pose proof (init_base_ready _ _ E1) as R1.
  assert (T1 : p_tau g1 = Some (tau_or g)).
  { apply init_base_inv in E1. destruct E1 as (tm & lb & ub & -> & _). destruct g; reflexivity. }
  clear E1. cbn zeta in H.
  set (G := match d with Some x => g1 <| p_phase := x |> | None => g1 end) in *.
  assert (EG : same_frame g1 G /\ p_tau G = p_tau g1 /\ p_ready G = p_ready g1).
  { unfold G. destruct d, g1; repeat split; auto. }
  clearbody G. destruct EG as (S2 & T2 & R2).
  set (K := match a, b, c with
            | None, None, None => G
            | _, _, _ => G <| p_waves := a |> <| p_wlen := b |> <| p_freq := c |> end) in *.
  assert (EK : same_frame G K /\ p_tau K = p_tau G /\ p_ready K = p_ready G).
  { unfold K. destruct a, b, c, G; repeat split; auto. }
  clearbody K. destruct EK as (S3 & T3 & R3).
  assert (EF : same_frame K g' /\ p_tau g' = p_tau K /\ p_ready g' = p_ready K /\ p_freq g' <> None).
  { clear - H. destruct K. cbn -[pydiv] in *.
    destruct p_waves; [|destruct p_wlen; [|destruct p_freq]]; try discriminate;
    repeat (apply bind_inv in H; destruct H as (? & ? & H)); injection H as <-; repeat split; auto; discriminate. }
  destruct EF as (S4 & T4 & R4 & F4). repeat split; try congruence;
    apply (same_trans _ _ _ S1 (same_trans _ _ _ S2 (same_trans _ _ _ S3 S4))).
Qed.

Lemma init_linear_same a b c g g' : init_linear a b c g = Ok g' ->
  same_frame g g' /\ p_tau g' = Some (tau_or g) /\ p_ready g' = true.
Proof.
  intros H. unfold init_linear in H. apply bind_inv in H. destruct H as (g1 & E1 & H).
  pose proof (init_base_same _ _ E1) as S1. pose proof (init_base_ready _ _ E1) as R1.
  assert (T1 : p_tau g1 = Some (tau_or g)).
  { apply init_base_inv in E1. destruct E1 as (tm & lb & ub & -> & _). destruct g; reflexivity. }
  assert (EF : same_frame g1 g' /\ p_tau g' = p_tau g1 /\ p_ready g' = p_ready g1).
  { clear - H. destruct g1. cbn -[fdiv last_tau] in *.
    destruct b, c; cbn -[fdiv last_tau] in H; try (destruct p_start, p_end); try (injection H as <-; repeat split; auto; fail);
      apply bind_inv in H; destruct H as (? & ? & H); injection H as <-; repeat split; auto. }
  destruct EF as (S4 & T4 & R4). repeat split; try congruence; apply (same_trans _ _ _ S1 S4).
Qed.

Lemma gen_plain fuel rnd ga g g' p : p_cls g <> CCrab ->
  gen_raw fuel rnd ga g = Ok (g', p) -> p_lb g' = BNo -> p_ub g' = BNo ->
  gen_pulse fuel rnd ga g = Ok (g', shift (F (p_offset g')) p).
Proof.
  intros Hc H L U. rewrite gen_pulse_std by auto. rewrite H. cbn [bind].
  unfold apply_bounds_and_offset. rewrite L, U. reflexivity.
Qed.

Lemma periodic_raw rnd a b c d g g' p : is_periodic (p_cls g) = true ->
  gen_periodic rnd a b c d g = Ok (g', p) ->
  same_frame g g' /\ length p = p_n g /\
  (p_n g = 0%nat \/ exists f tau, p_freq g' = Some f /\ p_tau g' = Some tau /\
     forall k, (k < p_n g)%nat -> nth_error p k =
       Some (F (p_scale g * periodic_value (p_cls g) f (p_phase g') (start_of tau k)))).
Proof.
  intros Hc H. unfold gen_periodic in H. cbn zeta in H.
  set (g1 := g <| p_phase := or_keep d (p_phase g) |>) in *.
  assert (S1 : same_frame g g1) by (unfold g1; destruct g; repeat split; auto). clearbody g1.
  apply bind_inv in H. destruct H as (g2 & E2 & H). apply bind_inv in H. destruct H as (g3 & E3 & H).
  assert (S2 : same_frame g1 g2).
  { destruct (_ || _)%bool; [apply init_periodic_same in E2; tauto|injection E2 as <-; apply same_refl]. }
  assert (S3 : same_frame g2 g3).
  { unfold ensure in E3. destruct (p_ready g2); [injection E3 as <-; apply same_refl|].
    unfold init_pulse in E3. assert (C : p_cls g2 = p_cls g) by (destruct S1, S2; congruence).
    rewrite C in E3. destruct (p_cls g); try discriminate; apply init_periodic_same in E3; tauto. }
  assert (S : same_frame g g3) by (eapply same_trans; [exact S1|]; eapply same_trans; eassumption).
  clear E2 E3 S1 S2 S3 g1 g2.
  unfold periodic_pulse in H. pose proof S as (C & N & T & Sc & Of & _).
  rewrite N in H. destruct (p_n g) as [|n] eqn:En.
  - injection H as <- <-. repeat split; auto; try apply S.
  - destruct (p_freq g3) as [f|] eqn:Ef; [|discriminate].
    apply bind_inv in H. destruct H as (tau & Et & H). apply bind_inv in H. destruct H as (q & Eq & H).
    injection H as <- <-. apply along_inv in Eq. destruct Eq as (L1 & L2 & Nq).
    split; [exact S|]. split; [auto|]. right. exists f, tau. repeat split; auto.
    + unfold tau_of in Et. destruct (p_tau g3); congruence.
    + intros k Hk. rewrite Nq by auto. rewrite Rplus_0_l, Sc, C. reflexivity.
Qed.

Lemma periodic_gen fuel rnd ga g g' p : is_periodic (p_cls g) = true -> p_lb g = BNo -> p_ub g = BNo ->
  gen_pulse fuel rnd ga g = Ok (g', p) ->
  length p = p_n g /\
  (p_n g = 0%nat \/ exists f tau, p_freq g' = Some f /\ p_tau g' = Some tau /\
     forall k, (k < p_n g)%nat -> nth_error p k =
       Some (F (p_scale g * periodic_value (p_cls g) f (p_phase g') (start_of tau k) + p_offset g))).
Proof.
  intros Hc L U H. rewrite gen_pulse_std in H by (intros E; rewrite E in Hc; discriminate).
  apply bind_inv in H. destruct H as ([g1 raw] & E1 & H). apply bind_inv in H. destruct H as (q & E2 & H).
  injection H as <- <-.
  assert (Z : exists a b c d, gen_periodic rnd a b c d g = Ok (g1, raw)).
  { unfold gen_raw in E1. destruct (p_cls g); try discriminate; destruct ga; try discriminate; eauto. }
  destruct Z as (a & b & c & d & Z). apply periodic_raw in Z; auto. destruct Z as ((C & N & T & Sc & Of & B1 & B2) & Ln & Z).
  unfold apply_bounds_and_offset in E2. rewrite (B1 L), (B2 U), Of in E2. injection E2 as <-.
  unfold shift. rewrite map_length. split; auto. destruct Z as [Z|(f & tau & Ef & Et & Z)]; auto.
  right. exists f, tau. repeat split; auto. intros k Hk. rewrite nth_error_map, (Z k Hk). reflexivity.
Qed.
