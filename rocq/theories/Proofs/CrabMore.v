(** The CRAB pulse in closed form; histories of a CRAB generator. *)
From Coq Require Import Reals Lra.
From RecordUpdate Require Import RecordUpdate.
From Verif.Model Require Import Str Base Float PulseGen OptVars Crab.
From Verif.Lib Require Import Lists.
From Verif.Spec Require Import Evolution Pulses Crabs.
From Verif.Proofs Require Import DynRun PulseFacts PulseShapes OptMore CrabFacts.
Local Open Scope R_scope.
Set Bullet Behavior "Strict Subproofs".

(** *** Histories *)
Record holds_bounds (lb ub : battr) (g : pgen) : Prop := {
  hb_cls : p_cls g = CCrab;
  hb_enf : enforces lb ub g;
  hb_guess : finite_list (p_guess g);
  hb_ramp : finite_list (p_ramp g);
}.

Lemma hb_attr lb ub g a : attr_fine a -> holds_bounds lb ub g -> holds_bounds lb ub (setattr g a).
Proof.
  intros Ha [C [E1 E2 E3 E4] G R]. destruct g. cbn in *.
  destruct a; cbn in Ha; try contradiction; (constructor; [|constructor|..]); cbn; auto.
Qed.

Lemma hb_attrs lb ub ps : Forall attr_fine ps -> forall g, holds_bounds lb ub g -> holds_bounds lb ub (fold_left setattr ps g).
Proof. induction 1; cbn; auto using hb_attr. Qed.

Lemma hb_init lb ub g g' rnd nc v : holds_bounds lb ub g -> init_crab rnd nc v g = Ok g' -> holds_bounds lb ub g'.
Proof.
  intros [C [E1 E2 E3 E4] G R] H. pose proof (init_crab_cls _ _ _ _ _ H) as C'.
  destruct (init_crab_enforces _ _ _ _ _ lb ub E1 (or_intror (conj E2 E3)) G H) as (Q1 & Q2 & Q3).
  constructor; auto; congruence.
Qed.

Lemma hb_gen lb ub g g' rnd c p : holds_bounds lb ub g -> gen_crab rnd c g = Ok (g', p) ->
  holds_bounds lb ub g' /\ Forall (fun a => fin a /\ within lb ub a) p.
Proof.
  intros HB H. destruct (gen_crab_inv _ _ _ _ _ H) as (g1 & raw & E1 & E2 & -> & Fr).
  assert (HB1 : holds_bounds lb ub g1).
  { destruct E1 as [->|[c' ->]]; auto. destruct HB as [C [Q1 Q2 Q3 Q4] G R]. destruct g. cbn in *.
    constructor; [|constructor|..]; cbn; auto. }
  assert (HB2 : holds_bounds lb ub g').
  { unfold ensure in E2. destruct (p_ready g1); [injection E2 as <-; auto|]. unfold init_pulse in E2.
    rewrite (hb_cls _ _ _ HB1) in E2. eapply hb_init; eauto. }
  split; auto. destruct HB2. apply enforced; auto.
Qed.

Lemma hb_step lb ub g g' o : pop_fine o -> holds_bounds lb ub g -> pstep o g = Ok g' -> holds_bounds lb ub g'.
Proof.
  intros Ho HB H. pose proof (hb_cls _ _ _ HB) as C. destruct o; cbn [pstep pop_fine] in *.
  - injection H as <-. apply hb_attr; auto.
  - destruct Ho as [Hn Hf]. destruct ps as [|a ps]; [congruence|]. injection H as <-. unfold apply_params.
    assert (HB' : holds_bounds lb ub (g <| p_params := a :: ps |>)).
    { destruct HB as [C' [Q1 Q2 Q3 Q4] G R]. destruct g. constructor; [|constructor|..]; cbn; auto. }
    apply hb_attrs; auto.
  - unfold init_pulse in H. rewrite C in H. destruct ia; try discriminate; eapply hb_init; eauto.
  - apply bind_inv in H. destruct H as ([g1 p] & E & H). injection H as <-. unfold gen_pulse in E. rewrite C in E.
    destruct ga; try discriminate; eapply hb_gen; eauto.
  - unfold set_coeffs in H. destruct (p_ncoef g); [|discriminate]. apply bind_inv in H. destruct H as (c & _ & H).
    injection H as <-. destruct HB as [C' [Q1 Q2 Q3 Q4] G R]. destruct g. constructor; [|constructor|..]; cbn; auto.
  - contradiction.
Qed.

Lemma hb_run lb ub ops : Forall pop_fine ops -> forall g g', holds_bounds lb ub g -> prun ops g = Ok g' -> holds_bounds lb ub g'.
Proof.
  induction 1 as [|o ops Ho _ IH]; cbn; intros g g' HB H.
  - injection H as <-; auto.
  - apply bind_inv in H. destruct H as (g1 & E & H). eauto using hb_step.
Qed.

(** *** Lists *)
Lemma at_map_seq (h : nat -> R) n k : (k < n)%nat -> at_ (map h (seq 0 n)) k = h k.
Proof. intros H. unfold at_. rewrite (nth_indep _ 0 (h 0%nat)) by (rewrite map_length, seq_length; auto).
  rewrite map_nth, seq_nth; auto. Qed.
Lemma map_seq_ext {X} (h1 h2 : nat -> X) n : (forall k, (k < n)%nat -> h1 k = h2 k) -> map h1 (seq 0 n) = map h2 (seq 0 n).
Proof. intros H. apply map_ext_in. intros k Hk. apply in_seq in Hk. apply H; lia. Qed.
Lemma map_at_seq (l : list R) : map (at_ l) (seq 0 (length l)) = l.
Proof. unfold at_. induction l as [|x l IH]; auto. cbn. f_equal. rewrite <- seq_shift, map_map. apply IH. Qed.

(** *** The Fourier sum *)
Definition fterm (c : list (list R)) (w : nat -> R) (t : R) (i : nat) : R :=
  coeff c i 0 * sin (w i * t) + coeff c i 1 * cos (w i * t).

Definition freq_of (g : pgen) (c : list (list R)) (i : nat) : R :=
  if p_fix g then match p_freqs g with Some fs => at_ fs i | None => 0 end else coeff c i 2.

Record sized (g : pgen) (nc : nat) (c : list (list R)) : Prop := {
  sz_coeffs : p_coeffs g = Some c;
  sz_shape : shape nc (p_nbasis g) c;
  sz_basis : ((if p_fix g then 2 else 3) <= p_nbasis g)%nat;
  sz_freqs : p_fix g = true -> exists fs, p_freqs g = Some fs /\ length fs = nc;
}.

Lemma get_coeff nc nb c i j : shape nc nb c -> (i < nc)%nat -> (j < nb)%nat ->
  exists row, get c i = Ok row /\ get row j = Ok (coeff c i j).
Proof.
  intros [L Fo] Hi Hj. assert (Hl : (i < length c)%nat) by lia.
  pose proof (nth_error_nth' c [] Hl) as E. exists (nth i c []). unfold get. rewrite E. split; auto.
  rewrite (Forall_forall _ _) in Fo. assert (R : length (nth i c []) = nb) by (apply Fo, nth_In; auto).
  assert (Hl' : (j < length (nth i c []))%nat) by lia. rewrite (nth_error_nth' _ 0 Hl'). reflexivity.
Qed.

Lemma crab_term_eq g nc c i t : sized g nc c -> (i < nc)%nat ->
  crab_term g i t = Ok (map F (map (fun x => fterm c (freq_of g c) x i) t)).
Proof.
  intros [S1 S2 S3 S4] Hi. unfold crab_term. rewrite S1.
  assert (B : (2 <= p_nbasis g)%nat) by (destruct (p_fix g); lia).
  destruct (get_coeff nc (p_nbasis g) c i 0 S2 Hi) as (row & E & E0); [lia|].
  destruct (get_coeff nc (p_nbasis g) c i 1 S2 Hi) as (row' & E' & E1); [lia|].
  rewrite E in E'. injection E' as <-. rewrite E. cbn [bind].
  assert (Ew : (if p_fix g then match p_freqs g with Some fs => get fs i | None => Raise TypeError end else get row 2)
               = Ok (freq_of g c i)).
  { unfold freq_of. destruct (p_fix g).
    - destruct S4 as (fs & -> & L); auto. unfold get, at_. rewrite (nth_error_nth' fs 0); [auto|lia].
    - destruct (get_coeff nc (p_nbasis g) c i 2 S2 Hi) as (row2 & E2 & E3); [lia|]. rewrite E in E2. injection E2 as <-. auto. }
  rewrite Ew. cbn [bind]. rewrite E0. cbn [bind]. rewrite E1. cbn [bind]. rewrite map_map. reflexivity.
Qed.

Lemma crab_sum_eq g nc c t : sized g nc c -> forall is s, (forall i, In i is -> (i < nc)%nat) -> length s = length t ->
  crab_sum g is t (map F s) =
  Ok (map F (map (fun k => at_ s k + fold_right Rplus 0 (map (fterm c (freq_of g c) (at_ t k)) is)) (seq 0 (length t)))).
Proof.
  intros S. induction is as [|i is IH]; intros s Hi L; cbn [crab_sum map fold_right].
  - do 2 f_equal. rewrite <- L. transitivity (map (at_ s) (seq 0 (length s))); [symmetry; apply map_at_seq|].
    apply map_ext. intros; lra.
  - rewrite (crab_term_eq g nc c i t S) by (apply Hi; left; auto). cbn [bind].
    rewrite iadd_F by (rewrite map_length; auto). cbn [bind]. rewrite IH.
    + do 2 f_equal. rewrite L. apply map_seq_ext. intros k Hk.
      rewrite at_map_seq by auto. unfold at_ at 2.
      rewrite (nth_indep _ 0 (fterm c (freq_of g c) 0 i)) by (rewrite map_length; auto).
      rewrite (map_nth (fun x => fterm c (freq_of g c) x i)). fold (at_ t k). lra.
    + intros j Hj. apply Hi. right; auto.
    + rewrite map_length, seq_length; auto.
Qed.

Lemma crab_sum_full g nc c t : sized g nc c -> 
  crab_sum g (range nc) t (repeat (F 0) (length t)) = Ok (map F (map (fun k => fourier_sum c (freq_of g c) (at_ t k)) (seq 0 (length t)))).
Proof.
  intros S. assert (E : repeat (F 0) (length t) = map F (repeat 0 (length t))) by (induction (length t); cbn; congruence).
  rewrite E, (crab_sum_eq g nc c t S).
  - do 2 f_equal. apply map_ext. intros k. unfold fourier_sum. destruct S as [_ [L _] _ _]. rewrite L.
    replace (at_ (repeat 0 (length t)) k) with 0; [unfold range, fterm; lra|].
    unfold at_. symmetry. destruct (nth_in_or_default k (repeat 0 (length t)) 0) as [Hin|]; auto.
    apply repeat_spec in Hin. auto.
  - intros i Hi. unfold range in Hi. apply in_seq in Hi. lia.
  - apply repeat_length.
Qed.

(** *** The pulse, from the attributes of an initialised generator *)
Definition bound_map (g : pgen) (m s y : R) : R :=
  match p_cond g with
  | None => y
  | Some BscAll => tanh y * s + m
  | Some BscGt => if Rlt_dec m y then tanh y * s + m else y
  | Some BscLt => if Rlt_dec y m then tanh y * s + m else y
  end.

Record set_up (n nc : nat) (g : pgen) (t : list R) (guess ramp : option (list R)) (f : gfun) (m s : R) : Prop := {
  su_cls : p_cls g = CCrab;
  su_ready : p_ready g = true;
  su_n : p_n g = n;
  su_nc : p_ncoef g = Some nc;
  su_vars : p_nvars g = (nc * p_nbasis g)%nat;
  su_freqs : exists fs, p_freqs g = Some fs /\ length fs = nc;
  su_time : p_time g = Some t;
  su_tlen : length t = n;
  su_guess : nums (p_guess g) guess;
  su_glen : match guess with None => p_gfun g = None | Some l => length l = n /\ p_gfun g = Some f end;
  su_ramp : nums (p_ramp g) ramp;
  su_rlen : match ramp with None => True | Some l => length l = n end;
  su_bounds : p_cond g <> None -> p_bmean g = F m /\ p_bscale g = F s;
}.

Definition crab_amp (g : pgen) (t : list R) guess ramp f m s (c : list (list R)) (k : nat) : R :=
  bound_map g m s (with_ramp ramp k (with_guess guess f k (fourier_sum c (freq_of g c) (at_ t k)))).

Lemma gen_crab_eq rnd n nc g t guess ramp f m s c :
  set_up n nc g t guess ramp f m s -> enough_columns g -> p_coeffs g = Some c -> shape nc (p_nbasis g) c ->
  gen_crab rnd None g = Ok (g, map F (map (crab_amp g t guess ramp f m s c) (seq 0 n))).
Proof.
  intros [U1 U2 U3 U4 U5 U7 U8 U9 U10 U11 U12 U13 U14] U6 Hc Hs.
  assert (S : sized g nc c) by (constructor; auto).
  unfold gen_crab, ensure. cbn [bind]. rewrite U2. cbn [bind].
  assert (E1 : (match ncoef_of g with
                | 0 => Ok (repeat (F 0) (p_n g))
                | nc => t <- time_of g;; crab_sum g (range nc) t (repeat (F 0) (p_n g))
                end) = Ok (map F (map (fun k => fourier_sum c (freq_of g c) (at_ t k)) (seq 0 n)))).
  { unfold ncoef_of. rewrite U4, U3. destruct nc as [|nc].
    - f_equal. destruct Hs as [Hl _]. destruct c; [|discriminate]. unfold fourier_sum. cbn.
      rewrite map_map. clear. induction n; auto. rewrite seq_S, map_app, <- IHn. cbn. clear.
      change (repeat (F 0) (S n)) with (F 0 :: repeat (F 0) n). apply repeat_cons.
    - unfold time_of. rewrite U8. cbn [bind]. rewrite <- U9. apply crab_sum_full; auto. }
  rewrite E1. cbn [bind].
  set (h := fun k => fourier_sum c (freq_of g c) (at_ t k)).
  assert (E2 : (match p_gfun g with Some f => apply_guess f (p_guess g) (map F (map h (seq 0 n)))
                | None => Ok (map F (map h (seq 0 n))) end)
               = Ok (map F (map (fun k => with_guess guess f k (h k)) (seq 0 n)))).
  { destruct guess as [l|].
    - destruct U11 as [Ll ->]. unfold nums in U10. cbn in U10. unfold apply_guess. rewrite U10. destruct f.
      + rewrite map_map. cbn [fadd].
        replace (map (fun x => F (1 + x)) (map h (seq 0 n))) with (map F (map (fun k => 1 + h k) (seq 0 n))) by (rewrite !map_map; auto).
        rewrite (broadcast_F fmul Rmult); auto; [|rewrite map_length, seq_length; auto].
        do 2 f_equal. rewrite map_length, seq_length. apply map_seq_ext. intros k Hk. rewrite at_map_seq; auto.
      + rewrite (broadcast_F fadd Rplus); auto; [|rewrite map_length, seq_length; auto].
        do 2 f_equal. rewrite map_length, seq_length. apply map_seq_ext. intros k Hk. rewrite at_map_seq; auto.
    - rewrite U11. auto. }
  rewrite E2. cbn [bind]. set (h2 := fun k => with_guess guess f k (h k)).
  assert (E3 : (match p_ramp g with Some r => broadcast fmul (map F (map h2 (seq 0 n))) r
                | None => Ok (map F (map h2 (seq 0 n))) end)
               = Ok (map F (map (fun k => with_ramp ramp k (h2 k)) (seq 0 n)))).
  { unfold nums in U12. rewrite U12. destruct ramp as [l|]; cbn; auto.
    rewrite (broadcast_F fmul Rmult); auto; [|rewrite map_length, seq_length; auto].
    do 2 f_equal. rewrite map_length, seq_length. apply map_seq_ext. intros k Hk. rewrite at_map_seq; auto. }
  rewrite E3. cbn [bind]. do 2 f_equal. unfold crab_bounds, crab_amp, bound_map. destruct (p_cond g) as [b|].
  - destruct U14 as [-> ->]; [discriminate|].
    destruct b; rewrite !map_map; apply map_ext; intros k; cbn; auto; unfold Rltb; destruct (Rlt_dec _ _); auto.
  - auto.
Qed.
