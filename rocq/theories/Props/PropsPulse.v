(** Properties C27 and C31-C35, C54-C56: the standard pulse generators.
    Vocabulary in Spec/Pulses.v; [gen_pulse] and [init_pulse] model the methods
    of the same name of every generator class. *)
From Coq Require Import Reals Lra Lia List ZArith.
From RecordUpdate Require Import RecordUpdate.
From Verif.Model Require Import PulseGen.
From Verif.Spec Require Import Pulses.
From Verif.Proofs Require Import PulseFacts PulseShapes PulseWalks PulseMore.
Import ListNotations.
Local Open Scope R_scope.

(** * C27 *)
(** [raw] is the pulse the same call gives without bounds and offset.  With
    lbound <= ubound, either None or infinite, the call gives a pulse of the
    same length whose amplitudes respect both bounds; a pulse inside the bounds
    is only shifted by the offset; with bounds that are None or finite, the pulse
    is otherwise shrunk and shifted as a whole. *)
Theorem C27_within_bounds fuel rnd ga g g0 raw : p_cls g <> CCrab -> ordered (p_lb g) (p_ub g) ->
  gen_pulse fuel rnd ga (unbounded g) = Ok (g0, map F raw) -> raw <> [] ->
  exists g' p, gen_pulse fuel rnd ga g = Ok (g', p) /\ length p = length raw /\
    Forall (within (p_lb g) (p_ub g)) p /\
    (Forall (fun y => within (p_lb g) (p_ub g) (F (y + p_offset g))) raw ->
     p = map (fun y => F (y + p_offset g)) raw) /\
    (tame (p_lb g) -> tame (p_ub g) ->
     exists c d, 0 <= c <= 1 /\ p = map (fun y => F (c * y + d)) raw).
Proof. apply gen_bounded. Qed.

(** For a newly constructed generator of a class other than ZERO and RND this
    holds with infinite bounds too, so its amplitudes are finite. *)
Theorem C27_finite fuel rnd ga c g g0 raw : c <> CCrab -> c <> CZero -> c <> CRnd ->
  fresh c g -> ordered (p_lb g) (p_ub g) ->
  gen_pulse fuel rnd ga (unbounded g) = Ok (g0, map F raw) -> raw <> [] ->
  exists g' p a b, gen_pulse fuel rnd ga g = Ok (g', p) /\ 0 <= a <= 1 /\ p = map (fun y => F (a * y + b)) raw.
Proof. intros H1 H2 H3. apply gen_fresh_finite. repeat split; auto. Qed.

Definition two_slots (c : cls) (ats : list attr) : pgen := fold_left setattr (ANum 2 :: ats) (new_gen c None []).

Example C27_case :
  let g := two_slots CWalk1 [ALb (BVal FNInf); AUb (BVal (F 0)); AOffset 2] in
  fresh CWalk1 g /\ ordered (p_lb g) (p_ub g) /\
  exists g0 a b, gen_pulse 0 (fun _ => / 4) GNone (unbounded g) = Ok (g0, map F [a; b]).
Proof.
  split; [|split].
  - exists None, [], [ANum 2; ALb (BVal FNInf); AUb (BVal (F 0)); AOffset 2]. reflexivity.
  - repeat split; exact I.
  - do 3 eexists. vm_compute. reflexivity.
Qed.

(** The restriction on C27_finite is needed: RND never replaces an infinite
    bound by None, and an upper bound that cuts the pulse then makes every
    amplitude -inf. *)
Theorem C27_infinite_amplitudes :
  let g := two_slots CRnd [ALb (BVal FNInf); AUb (BVal (F (-1)))] in
  fresh CRnd g /\ ordered (p_lb g) (p_ub g) /\
  exists g', gen_pulse 0 (fun _ => / 2) GNone g = Ok (g', [FNInf; FNInf]).
Proof.
  split; [|split].
  - exists None, [], [ANum 2; ALb (BVal FNInf); AUb (BVal (F (-1)))]. reflexivity.
  - repeat split; exact I.
  - cbv zeta. literal (two_slots CRnd [ALb (BVal FNInf); AUb (BVal (F (-1)))]).
    eexists. unfold gen_pulse. decide_reals. reflexivity.
Qed.

(** Bounds given as lists, one per control, as the GRAPE functions hand them
    to the generator, make every call raise. *)
Theorem C27_list_bounds fuel rnd ga g l : p_cls g <> CCrab -> p_lb g = BSeq l ->
  forall x, gen_pulse fuel rnd ga g <> Ok x.
Proof.
  intros Hc L [g' p] H. rewrite gen_pulse_std in H by auto.
  destruct (gen_raw fuel rnd ga g) as [[g1 p1]|] eqn:E; [|discriminate]. cbn [bind] in H.
  apply (seq_lb _ _ _ _ _ _ l) in E; auto. unfold apply_bounds_and_offset in H. rewrite E in H. destruct (p_ub g1); discriminate.
Qed.

(** * C31 *)
(** One value per slot; the value in slot k, starting at time t_k, is scaling
    times the point of the cycle reached, freq*t_k + start_phase/(2*pi) cycles
    from its beginning, plus the offset; it depends only on the fractional part
    of that number and lies in [-1, 1] before scaling. *)
Theorem C31_waveform fuel rnd ga g g' p :
  In (p_cls g) [CSine; CSquare; CSaw; CTri] -> p_lb g = BNo -> p_ub g = BNo ->
  gen_pulse fuel rnd ga g = Ok (g', p) ->
  length p = p_n g /\
  (p_n g <> 0%nat -> exists f tau, p_freq g' = Some f /\ p_tau g' = Some tau /\
     forall k, (k < p_n g)%nat -> exists (n : Z) r,
       f * start_of tau k + p_phase g' / (2 * PI) = IZR n + r /\ 0 <= r < 1 /\
       -1 <= cycle (p_cls g) r <= 1 /\
       nth_error p k = Some (F (p_scale g * cycle (p_cls g) r + p_offset g))).
Proof.
  intros Hp L U H.
  assert (Hp' : is_periodic (p_cls g) = true) by (destruct Hp as [<-|[<-|[<-|[<-|[]]]]]; reflexivity).
  destruct (periodic_gen fuel rnd ga g g' p Hp' L U H) as (A & [B|(f & tau & F1 & F2 & N)]); split; auto; try contradiction.
  intros _. exists f, tau. split; auto. split; auto. intros k Hk.
  destruct (cycle_of (f * start_of tau k + p_phase g' / (2 * PI))) as (n & r & E & Hr).
  exists n, r. split; auto. split; auto. split; [apply cycle_range; auto|].
  rewrite (N k Hk), (wave_cycle _ _ _ _ n r Hp' Hr E). reflexivity.
Qed.

(** The shapes of the cycles. *)
Theorem C31_shapes r : 0 <= r < 1 ->
  (cycle CSquare r = 1 \/ cycle CSquare r = -1) /\
  (cycle CSquare r = 1 <-> r < / 2) /\
  cycle CSine 0 = 0 /\ cycle CSine (/ 4) = 1 /\
  cycle CTri 0 = 0 /\ cycle CTri (/ 4) = 1 /\ cycle CTri (3 / 4) = -1 /\
  cycle CSaw 0 = 0 /\ cycle CSaw (/ 2) = -1.
Proof.
  intros H. cbn. replace (2 * PI * 0) with 0 by ring. rewrite sin_0.
  replace (2 * PI * / 4) with (PI / 2) by field. rewrite sin_PI2.
  repeat match goal with |- context [Rlt_dec ?a ?b] => destruct (Rlt_dec a b); try lra end;
  repeat match goal with |- context [Rle_dec ?a ?b] => destruct (Rle_dec a b); try lra end;
  repeat split; auto; lra.
Qed.

(** The call succeeds, with the frequency the arguments say, when they are not
    zero and the slots fit. *)
Theorem C31_succeeds fuel rnd g nw wavelen freq phase f :
  In (p_cls g) [CSine; CSquare; CSaw; CTri] -> p_lb g = BNo -> p_ub g = BNo ->
  length (slots g) = p_n g -> p_T g <> 0 -> f <> 0 ->
  match nw, wavelen, freq with
  | Some n, _, _ => n = f * p_T g
  | None, Some w, _ => w = 1 / f
  | None, None, Some x => x = f
  | None, None, None => False
  end ->
  exists g' p, gen_pulse fuel rnd (GPeriodic nw wavelen freq phase) g = Ok (g', p) /\ p_freq g' = Some f.
Proof.
  intros Hp L U Hl HT Hf HF.
  assert (Hp' : is_periodic (p_cls g) = true) by (destruct Hp as [<-|[<-|[<-|[<-|[]]]]]; reflexivity).
  assert (HM : exists x, match (nw, wavelen, freq) with
    | (Some n, _, _) => x = n /\ f = n / p_T g /\ n <> 0
    | (None, Some w, _) => w <> 0 /\ f = 1 / w /\ x = w * p_T g
    | (None, None, Some y) => y <> 0 /\ f = y /\ x = 1 / y * p_T g
    | _ => False
    end).
  { destruct nw as [n|]; [|destruct wavelen as [w|]; [|destruct freq as [y|]; [|contradiction]]].
    - subst n. exists (f * p_T g). split; auto. split; [field; auto|]. apply Rmult_integral_contrapositive; auto.
    - subst w. eexists. split; [unfold Rdiv; rewrite Rmult_1_l; apply Rinv_neq_0_compat; auto|]. split; [field; auto|reflexivity].
    - subst y. eexists. repeat split; auto. }
  destruct HM as (x & HM). eapply gen_periodic_ok; eauto. destruct nw, wavelen, freq; try discriminate; contradiction.
Qed.

Example C31_case : let g := two_slots CTri [] in
  In (p_cls g) [CSine; CSquare; CSaw; CTri] /\ p_lb g = BNo /\ p_ub g = BNo /\ length (slots g) = p_n g /\ p_T g <> 0 /\
  3 = 3 * p_T g.
Proof. cbn. repeat split; auto; lra. Qed.

(** * C32 *)
(** RNDWALK1: steps of at most scaling*max_d_amp also after bounding; without
    bounds the start is within scaling of the offset. *)
Theorem C32_walk1 fuel rnd ga g g' p : fresh CWalk1 g -> draws rnd -> ordered (p_lb g) (p_ub g) ->
  gen_pulse fuel rnd ga g = Ok (g', p) -> p <> [] ->
  exists v, p = map F v /\
    (p_lb g = BNo -> p_ub g = BNo -> Rabs (at_ v 0 - p_offset g) <= Rabs (p_scale g)) /\
    forall k, (S k < length v)%nat -> Rabs (at_ v (S k) - at_ v k) <= Rabs (p_scale g' * p_maxd g').
Proof.
  intros Hf. destruct (fresh_facts _ _ Hf) as (Hc & Hr & _). intros. eapply walk1_gen; eauto. left. auto.
Qed.

(** RNDWALK2: the gradient starts at 0 and changes by at most max_d2_amp. *)
Theorem C32_walk2_partial fuel rnd ga g g' p : fresh CWalk2 g -> draws rnd -> ordered (p_lb g) (p_ub g) ->
  gen_pulse fuel rnd ga g = Ok (g', p) -> p <> [] ->
  exists v, p = map F v /\
    (p_lb g = BNo -> p_ub g = BNo -> Rabs (at_ v 0 - p_offset g) <= Rabs (p_scale g)) /\
    ((1 < length v)%nat -> Rabs (at_ v 1 - at_ v 0) <= Rabs (p_maxd2 g')) /\
    forall k, (S (S k) < length v)%nat -> Rabs (at_ v (S (S k)) - 2 * at_ v (S k) + at_ v k) <= Rabs (p_maxd2 g').
Proof.
  intros Hf. destruct (fresh_facts _ _ Hf) as (Hc & Hr & _). intros. eapply walk2_gen; eauto. left. auto.
Qed.

Example C32_case :
  let g := two_slots CWalk2 [AScale 3; ALb (BVal (F 0))] in
  fresh CWalk2 g /\ draws (fun _ => / 4) /\ ordered (p_lb g) (p_ub g) /\
  exists g' a b, gen_pulse 0 (fun _ => / 4) (GWalk2 (Some 1)) (two_slots CWalk2 []) = Ok (g', [a; b]).
Proof.
  split; [|split; [|split]].
  - exists None, [], [ANum 2; AScale 3; ALb (BVal (F 0))]. reflexivity.
  - intros i. lra.
  - repeat split; exact I.
  - do 3 eexists. vm_compute. reflexivity.
Qed.

(** The documentation says max_d2_amp is factored by the scaling.  It is not:
    with scaling 0 the pulse still moves. *)
Theorem C32_walk2_scaled_refuted :
  exists rnd g g' v, fresh CWalk2 g /\ draws rnd /\ p_lb g = BNo /\ p_ub g = BNo /\
    gen_pulse 0 rnd GNone g = Ok (g', map F v) /\
    ~ Rabs (at_ v 2 - 2 * at_ v 1 + at_ v 0) <= Rabs (p_scale g' * p_maxd2 g').
Proof.
  exists (fun _ => 0), (fold_left setattr [ANum 3; AScale 0] (new_gen CWalk2 None [])).
  do 2 eexists. split; [exists None, [], [ANum 3; AScale 0]; reflexivity|].
  split; [intros i; lra|]. split; [reflexivity|]. split; [reflexivity|]. split.
  - literal (fold_left setattr [ANum 3; AScale 0] (new_gen CWalk2 None [])). run.
    do 2 f_equal. apply map_cons_F. apply map_cons_F. apply map_cons_F. exact (eq_refl (map F [])).
  - cbn. rewrite (Rabs_pos_eq (0 * / 100)) by lra. intros H.
    match type of H with Rabs ?x <= _ => replace x with (- / 100) in H by lra end.
    rewrite Rabs_left in H; lra.
Qed.

(** * C33 *)
(** From start_val in the first slot to end_val in the last, linearly in the
    start time of the slot, for any timeslot division of the pulse time. *)
Theorem C33_interpolates fuel rnd g ga s e :
  p_cls g = CLin -> p_lb g = BNo -> p_ub g = BNo ->
  (1 < p_n g)%nat -> length (slots g) = p_n g -> total (slots g) = p_T g ->
  start_of (slots g) (p_n g - 1) <> 0 ->
  (ga = GNone /\ p_ready g = false /\ p_start g = Some s /\ p_end g = Some e) \/
  (exists gr, ga = GLinear gr (Some s) (Some e)) ->
  exists g' p, gen_pulse fuel rnd ga g = Ok (g', p) /\ length p = p_n g /\
    forall k, (k < p_n g)%nat -> nth_error p k =
      Some (F (p_scale g * (s + (e - s) * (start_of (slots g) k / start_of (slots g) (p_n g - 1))) + p_offset g)).
Proof. apply linear_gen. Qed.

Example C33_case :
  let g := fold_left setattr [ANum 3; ATime 6; ATau (Some [1; 2; 3])] (new_gen CLin None []) in
  p_cls g = CLin /\ length (slots g) = p_n g /\ total (slots g) = p_T g /\ start_of (slots g) (p_n g - 1) <> 0 /\
  p_start g = Some (-1) /\ p_end g = Some 1.
Proof. cbn. repeat split; try lra. Qed.

(** A generator created for a Dynamics object, nothing else given: the pulse
    rises from -1 to 1 over the durations of that object, in its scaling and
    with its offset. *)
Theorem C33_on_dynamics fuel rnd d :
  (1 < pa_n d)%nat -> length (pa_tau d) = pa_n d -> total (pa_tau d) = pa_T d -> start_of (pa_tau d) (pa_n d - 1) <> 0 ->
  exists g' p, gen_pulse fuel rnd GNone (new_gen CLin (Some d) []) = Ok (g', p) /\ length p = pa_n d /\
    forall k, (k < pa_n d)%nat -> nth_error p k =
      Some (F (pa_scale d * (-1 + 2 * (start_of (pa_tau d) k / start_of (pa_tau d) (pa_n d - 1))) + pa_offset d)).
Proof.
  intros H1 H2 H3 H4.
  destruct (C33_interpolates fuel rnd (new_gen CLin (Some d) []) GNone (-1) 1) as (g' & p & E & L & K); auto.
  exists g', p. split; [exact E|]. split; [exact L|]. intros k Hk. replace 2 with (1 - -1) by lra. apply (K k Hk).
Qed.
Example C33_dynamics_case :
  let d := {| pa_n := 3; pa_T := 6; pa_scale := 2; pa_offset := 1; pa_tau := [1; 2; 3]; pa_dim := 2 |} in
  (1 < pa_n d)%nat /\ length (pa_tau d) = pa_n d /\ total (pa_tau d) = pa_T d /\ start_of (pa_tau d) (pa_n d - 1) <> 0.
Proof. cbn. unfold total, start_of. cbn. repeat split; try lra; auto. Qed.

(** A gradient and a start value given to [gen_pulse] are ignored. *)
Theorem C33_gradient_refuted :
  exists g g' a b, fresh CLin g /\ p_n g = 2%nat /\ slots g = [/ 2; / 2] /\
    gen_pulse 0 (fun _ => 0) (GLinear (Some 4) (Some 5) None) g = Ok (g', [F a; F b]) /\ a <> 5 /\ b <> 5 + 4 * / 2.
Proof.
  exists (fold_left setattr [ANum 2; ATau (Some [/ 2; / 2])] (new_gen CLin None [])).
  do 3 eexists. split; [exists None, [], [ANum 2; ATau (Some [/ 2; / 2])]; reflexivity|].
  split; [reflexivity|]. split; [reflexivity|]. split.
  - literal (fold_left setattr [ANum 2; ATau (Some [/ 2; / 2])] (new_gen CLin None [])).
    run. unfold fdiv, fmul. destruct (Req_EM_T (1 - / 2) 0); [exfalso; lra|]. reflexivity.
  - split; lra.
Qed.

(** With a single slot the pulse is not a number. *)
Theorem C33_one_slot : exists g', gen_pulse 0 (fun _ => 0) GNone
  (fold_left setattr [ANum 1; ATau (Some [1])] (new_gen CLin None [])) = Ok (g', [FNan]).
Proof.
  literal (fold_left setattr [ANum 1; ATau (Some [1])] (new_gen CLin None [])).
  eexists. run. unfold fdiv. destruct (Req_EM_T (1 - 1) 0); [|exfalso; lra]. unfold signed_inf.
  destruct (Rlt_dec 0 (1 - -1)); [|exfalso; lra]. unfold fmul, signed_inf. destruct (Rlt_dec 0 0); [exfalso; lra|].
  reflexivity.
Qed.

(** * C34 *)
Theorem C34_wavelength rnd ia g g' : In (p_cls g) [CSine; CSquare; CSaw; CTri] ->
  init_pulse rnd ia g = Ok g' -> exists f w, p_freq g' = Some f /\ p_wlen g' = Some w /\ w * f = 1.
Proof.
  intros Hp H. unfold init_pulse in H.
  destruct Hp as [E|[E|[E|[E|[]]]]]; rewrite <- E in H; destruct ia; try discriminate; eapply periodic_consistent; eauto.
Qed.

(** When the number of waves is given, in the call or as attribute, it is the
    number of cycles in the pulse time and initialising again changes nothing. *)
Theorem C34_idempotent_partial rnd rnd' ia g g' nw : In (p_cls g) [CSine; CSquare; CSaw; CTri] ->
  ordered (p_lb g) (p_ub g) ->
  (exists w f ph, ia = IPeriodic (Some nw) w f ph) \/
  ((ia = INone \/ exists ph, ia = IPeriodic None None None ph) /\ p_waves g = Some nw) ->
  init_pulse rnd ia g = Ok g' ->
  (exists f, p_freq g' = Some f /\ p_waves g' = Some nw /\ nw = f * p_T g') /\
  init_pulse rnd' INone g' = Ok g'.
Proof.
  intros Hp O HA H.
  assert (HP : p_cls g' = p_cls g /\ exists a b c d, init_periodic a b c d g = Ok g' /\
    (a = Some nw \/ (a = None /\ b = None /\ c = None /\ p_waves g = Some nw))).
  { unfold init_pulse in H.
    assert (Z : exists a b c d, init_periodic a b c d g = Ok g' /\
      (a = Some nw \/ (a = None /\ b = None /\ c = None /\ p_waves g = Some nw))).
    { destruct HA as [(w & f & ph & ->)|([->|(ph & ->)] & Hw)];
        destruct Hp as [E|[E|[E|[E|[]]]]]; rewrite <- E in H; do 4 eexists; (split; [exact H|auto]). }
    split; [|exact Z]. destruct Z as (a & b & c & d & Z & _). apply init_periodic_same in Z. apply Z. }
  destruct HP as (Hc & a & b & c & d & HI & HW).
  destruct (periodic_waves a b c d g g' nw O HW HI) as (f & F1 & F2 & F3 & F4).
  split; [exists f; auto|]. unfold init_pulse. rewrite Hc.
  destruct Hp as [E|[E|[E|[E|[]]]]]; rewrite <- E; exact F4.
Qed.

Example C34_case : exists g', init_pulse (fun _ => 0) (IPeriodic (Some 3) None None None) (two_slots CSaw [ATime 2]) = Ok g'.
Proof.
  destruct (init_periodic_ok (Some 3) None None None (two_slots CSaw [ATime 2])) with (nw := 3) (f := 3 / 2) as (g' & E & _).
  - repeat split; exact I.
  - reflexivity.
  - cbn. lra.
  - cbn. repeat split; lra.
  - exists g'. unfold init_pulse. replace (p_cls (two_slots CSaw [ATime 2])) with CSaw by reflexivity. exact E.
Qed.

(** Otherwise num_waves is computed wrongly, as wavelen*pulse_time, and
    initialising again changes the frequency: from 2 to 1/2 here. *)
Theorem C34_refuted : exists g g' g'' w, fresh CSine g /\ p_freq g = Some 2 /\ p_T g = 1 /\
  init_pulse (fun _ => 0) INone g = Ok g' /\ p_freq g' = Some 2 /\ p_waves g' = Some w /\ w <> 2 * p_T g' /\
  init_pulse (fun _ => 0) INone g' = Ok g'' /\ p_freq g'' <> Some 2.
Proof.
  destruct (init_periodic_ok None None None None (two_slots CSine [AFreq (Some 2)])) with (nw := 1 / 2 * 1) (f := 2)
    as (g' & E & F1 & W1 & T1 & N1 & S1 & O1 & _).
  { repeat split; exact I. } { reflexivity. } { cbn. lra. } { cbn. repeat split; lra. }
  change (p_T (two_slots CSine [AFreq (Some 2)])) with 1 in T1.
  destruct (init_periodic_ok None None None None g') with (nw := 1 / 2 * 1) (f := 1 / 2 * 1 / 1) as (g'' & E' & F2 & _).
  { exact O1. } { rewrite S1, N1. reflexivity. } { lra. } { unfold in_force. rewrite W1, T1. repeat split; lra. }
  exists (two_slots CSine [AFreq (Some 2)]), g', g'', (1 / 2 * 1).
  split; [exists None, [], [ANum 2; AFreq (Some 2)]; reflexivity|]. split; [reflexivity|]. split; [reflexivity|].
  split; [unfold init_pulse; replace (p_cls (two_slots CSine [AFreq (Some 2)])) with CSine by reflexivity; exact E|].
  split; [exact F1|]. split; [exact W1|]. split; [lra|]. split.
  - assert (C : p_cls g' = CSine) by (apply init_periodic_same in E; apply E).
    unfold init_pulse. rewrite C. exact E'.
  - rewrite F2. intros H. injection H. lra.
Qed.

(** * C35 *)
(** The halving loop ends: there is a number K of components, with wavelengths
    2*pulse_time / 2^i for i < K, exactly those above min_wavelen, that is
    enough fuel.  The pulse is their sum and stays within sqrt 8 times the
    scaling. *)
Theorem C35_terminates rnd g :
  fresh CFourier g -> draws rnd -> p_lb g = BNo -> p_ub g = BNo ->
  length (slots g) = p_n g -> 0 < p_minwl g <= p_T g ->
  exists K amp ph,
    (0 < K)%nat /\ 2 * p_T g / 2 ^ K <= p_minwl g /\ (forall i, (i < K)%nat -> p_minwl g < 2 * p_T g / 2 ^ i) /\
    (forall i, (i < K)%nat -> Rabs (amp i) <= sqrt 8 * Rabs (p_scale g) / INR K /\ 0 <= ph i < PI / 2) /\
    exists g' p, (forall fuel, (K <= fuel)%nat -> gen_pulse fuel rnd GNone g = Ok (g', p)) /\ length p = p_n g /\
      forall k, (k < p_n g)%nat -> exists x, nth_error p k = Some (F (x + p_offset g)) /\
        x = fold_right Rplus 0 (map (fun i => amp i * sin (2 * PI * start_of (slots g) k / (2 * p_T g / 2 ^ i) + ph i)) (range K)) /\
        Rabs x <= sqrt 8 * Rabs (p_scale g).
Proof.
  intros H1 H2 H3 H4 H5 H6. destruct (fourier_gen rnd g H1 H2 H3 H4 H5 H6) as (K & amp & ph & A & B & C & D & _ & E).
  exists K, amp, ph. auto.
Qed.

Definition wide : pgen := fold_left setattr [ANum 1; AMinWl 1] (new_gen CFourier None []).

Example C35_case : fresh CFourier wide /\ p_lb wide = BNo /\ p_ub wide = BNo /\
  length (slots wide) = p_n wide /\ 0 < p_minwl wide <= p_T wide.
Proof.
  split; [exists None, [], [ANum 1; AMinWl 1]; reflexivity|]. cbn. repeat split; lra.
Qed.

(** "Bounded by scaling" fails: an amplitude of 9/5 with scaling 1. *)
Theorem C35_bounded_by_scaling_refuted : exists rnd g g' p x,
  fresh CFourier g /\ draws rnd /\ p_lb g = BNo /\ p_ub g = BNo /\ p_offset g = 0 /\ p_scale g = 1 /\
  (forall fuel, (1 <= fuel)%nat -> gen_pulse fuel rnd GNone g = Ok (g', p)) /\ nth_error p 0 = Some (F x) /\ 1 < x.
Proof.
  set (rnd := fun i => match i with 0%nat => 19 / 20 | _ => / 2 end).
  assert (Hd : draws rnd) by (intros [|i]; cbn; lra).
  destruct C35_case as (A1 & A2 & A3 & A4 & A5).
  destruct (fourier_gen rnd wide A1 Hd A2 A3 A4 A5) as (K & amp & ph & B1 & B2 & B3 & _ & B5 & g' & p & B6 & B7 & B8).
  assert (K = 1%nat).
  { destruct K as [|[|K]]; [lia|reflexivity|]. specialize (B3 1%nat ltac:(lia)). cbn in B3. lra. }
  subst K. destruct (B8 0%nat) as (x & E & Ex & _); [cbn; lia|].
  exists rnd, wide, g', p, (x + p_offset wide). repeat split; auto; try (destruct i; cbn; lra).
  destruct (B5 0%nat) as (Ea & Ep). rewrite Ex. cbn [range seq map fold_right]. rewrite Ea, Ep. cbn.
  replace (2 * PI * 0 / (2 * 1 / 1) + / 2 * PI / 2) with (PI / 4) by field.
  rewrite sin_PI4. replace (sqrt 8) with (2 * sqrt 2).
  - assert (sqrt 2 <> 0) by (apply Rgt_not_eq, sqrt_lt_R0; lra).
    replace (2 * sqrt 2 * 1 / 1 * (19 / 20 * 2 - 1) * (1 / sqrt 2) + 0 + 0) with (9 / 5) by (field; auto). lra.
  - replace 8 with (2 * 2 * 2) by lra. rewrite (sqrt_mult (2 * 2) 2), sqrt_square by lra. reflexivity.
Qed.

(** * C54 *)
(** GAUSSIAN: the attributes or the non-zero arguments give the centre and the
    variance. *)
Theorem C54_gaussian fuel rnd g mean var :
  fresh CGauss g -> p_lb g = BNo -> p_ub g = BNo -> length (slots g) = p_n g -> var <> 0 ->
  forall ga, (ga = GNone /\ p_mean g = mean /\ p_var g = var) \/ (ga = GGauss (Some mean) (Some var) /\ mean <> 0) ->
  exists g' p, gen_pulse fuel rnd ga g = Ok (g', p) /\ length p = p_n g /\
    forall k, (k < p_n g)%nat -> nth_error p k =
      Some (F (p_scale g * exp (- (start_of (slots g) k - mean) ^ 2 / (2 * var)) + p_offset g)).
Proof.
  intros Hf L U Hl Hv ga [(-> & Hm & Hw)|(-> & Hm)].
  - destruct (gauss_gen fuel rnd g None None Hf L U Hl) as (g' & p & E & Lp & G & N); [cbn; congruence|].
    exists g', p. split; auto. split; auto. cbn in N. rewrite Hm, Hw in N. exact N.
  - assert (TM : truthy (Some mean) (p_mean g) = mean) by (cbn; destruct (Req_EM_T mean 0); congruence).
    assert (TV : truthy (Some var) (p_var g) = var) by (cbn; destruct (Req_EM_T var 0); congruence).
    destruct (gauss_gen fuel rnd g (Some mean) (Some var) Hf L U Hl) as (g' & p & E & Lp & G & N); [congruence|].
    rewrite TM, TV in N. exists g', p. auto.
Qed.

(** Hence, with a positive variance, above the offset and at most scaling. *)
Theorem C54_range x mean var scaling : 0 < var -> 0 < scaling ->
  0 < scaling * exp (- (x - mean) ^ 2 / (2 * var)) <= scaling /\
  (scaling * exp (- (x - mean) ^ 2 / (2 * var)) = scaling <-> x = mean).
Proof.
  intros Hv Hs. set (y := (x - mean) ^ 2 / (2 * var)).
  assert (Hy : 0 <= y) by (unfold y, Rdiv; apply Rmult_le_pos; [apply pow2_ge_0|left; apply Rinv_0_lt_compat; lra]).
  replace (- (x - mean) ^ 2 / (2 * var)) with (- y) by (unfold y; field; lra).
  pose proof (exp_pos (- y)) as Hp.
  assert (H1 : exp (- y) <= 1).
  { destruct (Req_dec y 0) as [->|Hn]; [rewrite Ropp_0, exp_0; lra|].
    rewrite <- exp_0. left. apply exp_increasing. lra. }
  split; [split; nra|]. split.
  - intros H. assert (E : exp (- y) = 1) by nra. rewrite <- exp_0 in E. apply exp_inv in E.
    assert (Z : (x - mean) ^ 2 = 0).
    { replace ((x - mean) ^ 2) with (y * (2 * var)) by (unfold y; field; lra). nra. }
    nra.
  - intros ->. assert (y = 0) as -> by (unfold y; field; lra). rewrite Ropp_0, exp_0. lra.
Qed.

Example C54_case : let g := two_slots CGauss [] in
  fresh CGauss g /\ length (slots g) = p_n g /\ p_mean g = / 2 * 1 /\ p_var g = / 2 * 1.
Proof. split; [exists None, [], [ANum 2]; reflexivity|]. repeat split. Qed.

(** A mean of 0 given to [gen_pulse] is ignored: the peak stays where it was. *)
Theorem C54_zero_mean_refuted : exists g g' p x, fresh CGauss g /\
  gen_pulse 0 (fun _ => 0) (GGauss (Some 0) (Some 1)) g = Ok (g', p) /\
  slots g <> [] /\ nth_error p 0 = Some (F x) /\ p_scale g = 1 /\ p_offset g = 0 /\
  x <> 1 * exp (- (0 - 0) ^ 2 / (2 * 1)) + 0.
Proof.
  assert (Hf : fresh CGauss (two_slots CGauss [])) by (exists None, [], [ANum 2]; reflexivity).
  destruct (gauss_gen 0 (fun _ => 0) (two_slots CGauss []) (Some 0) (Some 1) Hf eq_refl eq_refl eq_refl) as (g' & p & E & Lp & _ & N).
  { cbn. destruct (Req_EM_T 1 0); lra. }
  specialize (N 0%nat ltac:(cbn; lia)).
  exists (two_slots CGauss []), g', p. eexists. split; [exact Hf|]. split; [exact E|]. split; [discriminate|].
  split; [exact N|]. split; [reflexivity|]. split; [reflexivity|].
  cbn. destruct (Req_EM_T 0 0); [|lra]. destruct (Req_EM_T 1 0); [lra|].
  replace (- ((0 - 0) * ((0 - 0) * 1)) / (2 * 1)) with 0 by field. rewrite exp_0.
  intros H. assert (H' : exp (- ((0 - / 2 * 1) * ((0 - / 2 * 1) * 1)) / (2 * 1)) = exp 0) by (rewrite exp_0; lra).
  apply exp_inv in H'. lra.
Qed.

(** * C55 *)
(** GAUSSIAN_EDGE: the ramp and its mirror image, at the start of each slot. *)
Theorem C55_edge fuel rnd g td :
  fresh CEdge g -> p_lb g = BNo -> p_ub g = BNo -> length (slots g) = p_n g -> td <> 0 ->
  forall ga, (ga = GNone /\ p_decay g = td) \/ ga = GEdge (Some td) ->
  exists g' p, gen_pulse fuel rnd ga g = Ok (g', p) /\ length p = p_n g /\
    forall k, (k < p_n g)%nat -> let t := start_of (slots g) k in nth_error p k =
      Some (F (p_scale g * (1 - exp (- t ^ 2 / td) - exp (- (p_T g - t) ^ 2 / td)) + p_offset g)).
Proof.
  intros Hf L U Hl Ht ga [(-> & Hd)| ->].
  - destruct (edge_gen fuel rnd g None Hf L U Hl) as (g' & p & E & Lp & G & N); [cbn; congruence|].
    exists g', p. split; auto. split; auto. cbn in N. rewrite Hd in N. exact N.
  - assert (TD : truthy (Some td) (p_decay g) = td) by (cbn; destruct (Req_EM_T td 0); congruence).
    destruct (edge_gen fuel rnd g (Some td) Hf L U Hl) as (g' & p & E & Lp & G & N); [congruence|].
    rewrite TD in N. exists g', p. auto.
Qed.

(** It never exceeds the scaling, but it starts below zero. *)
Theorem C55_range t T td : 0 < td ->
  -1 < 1 - exp (- t ^ 2 / td) - exp (- (T - t) ^ 2 / td) < 1 \/ (t = 0 /\ T = 0).
Proof.
  intros Ht.
  assert (A : forall x, 0 < exp (- x ^ 2 / td) <= 1 /\ (x <> 0 -> exp (- x ^ 2 / td) < 1)).
  { intros x. split; [split; [apply exp_pos|]|]; (destruct (Req_dec x 0) as [->|Hn]).
    - replace (- 0 ^ 2 / td) with 0 by (field; lra). rewrite exp_0. lra.
    - left. replace 1 with (exp 0) by apply exp_0. apply exp_increasing.
      assert (0 < x ^ 2 / td) by (unfold Rdiv; apply Rmult_lt_0_compat; [rewrite <- Rsqr_pow2; apply Rlt_0_sqr; auto|apply Rinv_0_lt_compat; auto]).
      replace (- x ^ 2 / td) with (- (x ^ 2 / td)) by (field; lra). lra.
    - intros; lra.
    - intros _. replace 1 with (exp 0) by apply exp_0. apply exp_increasing.
      assert (0 < x ^ 2 / td) by (unfold Rdiv; apply Rmult_lt_0_compat; [rewrite <- Rsqr_pow2; apply Rlt_0_sqr; auto|apply Rinv_0_lt_compat; auto]).
      replace (- x ^ 2 / td) with (- (x ^ 2 / td)) by (field; lra). lra. }
  destruct (A t) as (A1 & A2), (A (T - t)) as (A3 & A4).
  destruct (Req_dec t 0) as [->|Hn].
  - destruct (Req_dec T 0) as [->|HT]; [right; auto|]. left. specialize (A4 ltac:(lra)). lra.
  - left. specialize (A2 Hn). lra.
Qed.
Theorem C55_start_below_zero T td : 1 - exp (- 0 ^ 2 / td) - exp (- (T - 0) ^ 2 / td) < 0.
Proof.
  replace (- 0 ^ 2 / td) with 0 by (unfold Rdiv; ring). rewrite exp_0.
  pose proof (exp_pos (- (T - 0) ^ 2 / td)). lra.
Qed.

Example C55_case : let g := two_slots CEdge [ATime 4] in
  fresh CEdge g /\ length (slots g) = p_n g /\ p_decay g <> 0.
Proof. split; [exists None, [], [ANum 2; ATime 4]; reflexivity|]. cbn. split; [reflexivity|lra]. Qed.

(** * C56 *)
(** RNDWAVES: num_comp_waves components with wavelengths in the given range;
    the pulse stays within sqrt 8 times the scaling. *)
Theorem C56_components fuel rnd g :
  fresh CWaves g -> draws rnd -> p_lb g = BNo -> p_ub g = BNo -> length (slots g) = p_n g ->
  0 < p_minwl g -> p_minwl g < p_maxwl g -> p_minwl g <= p_T g -> (0 < p_comp g)%nat ->
  exists wl amp ph g' p,
    (forall i, (i < p_comp g)%nat -> p_minwl g <= wl i < p_maxwl g /\
       Rabs (amp i) <= sqrt 8 * Rabs (p_scale g) / INR (p_comp g) /\ 0 <= ph i < PI / 2) /\
    gen_pulse fuel rnd GNone g = Ok (g', p) /\ length p = p_n g /\
    forall k, (k < p_n g)%nat -> exists x, nth_error p k = Some (F (x + p_offset g)) /\
      x = fold_right Rplus 0 (map (fun i => amp i * sin (2 * PI * start_of (slots g) k / wl i + ph i)) (range (p_comp g))) /\
      Rabs x <= sqrt 8 * Rabs (p_scale g).
Proof. apply waves_gen. Qed.

(** Wavelengths out of order, or a minimum above the pulse time, are refused. *)
Theorem C56_checks fuel rnd g : p_cls g = CWaves -> p_T g < p_minwl g \/ p_maxwl g <= p_minwl g ->
  gen_pulse fuel rnd GNone g = Raise ValueError.
Proof.
  intros Hc H. rewrite gen_pulse_std by (rewrite Hc; discriminate). unfold gen_raw. rewrite Hc.
  unfold gen_waves. cbn [or_keep]. replace (g <| p_comp := p_comp g |> <| p_minwl := p_minwl g |> <| p_maxwl := p_maxwl g |>)
    with g by (destruct g; reflexivity). cbn zeta. unfold Rltb, Rleb.
  destruct (Rlt_dec (p_T g) (p_minwl g)); [reflexivity|].
  destruct (Rle_dec (p_maxwl g) (p_minwl g)); [reflexivity|]. lra.
Qed.

Example C56_case : let g := two_slots CWaves [AComp 3] in
  fresh CWaves g /\ length (slots g) = p_n g /\ 0 < p_minwl g /\ p_minwl g < p_maxwl g /\ p_minwl g <= p_T g.
Proof. split; [exists None, [], [ANum 2; AComp 3]; reflexivity|]. cbn. repeat split; lra. Qed.

(** Assumptions of all theorems of this file together (listed one by one in
    ASSUMPTIONS.txt). *)
Definition propsPulse :=
  (@C27_within_bounds,
   @C27_finite,
   @C27_infinite_amplitudes,
   @C27_list_bounds,
   @C31_waveform,
   @C31_shapes,
   @C31_succeeds,
   @C32_walk1,
   @C32_walk2_partial,
   @C32_walk2_scaled_refuted,
   @C33_interpolates,
   @C33_on_dynamics,
   @C33_gradient_refuted,
   @C33_one_slot,
   @C34_wavelength,
   @C34_idempotent_partial,
   @C34_refuted,
   @C35_terminates,
   @C35_bounded_by_scaling_refuted,
   @C54_gaussian,
   @C54_range,
   @C54_zero_mean_refuted,
   @C55_edge,
   @C55_range,
   @C55_start_below_zero,
   @C56_components,
   @C56_checks).
Print Assumptions propsPulse.
