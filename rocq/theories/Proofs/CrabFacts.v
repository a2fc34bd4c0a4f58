(** Facts about CRAB generators: [init_pulse], [gen_pulse], the bounds. *)
From Coq Require Import Reals Lra.
From RecordUpdate Require Import RecordUpdate.
From Verif.Model Require Import Str Base Float PulseGen OptVars Crab.
From Verif.Lib Require Import Lists.
From Verif.Spec Require Import Evolution Pulses Crabs.
From Verif.Proofs Require Import DynRun PulseFacts.
Local Open Scope R_scope.
Set Bullet Behavior "Strict Subproofs".

(** *** tanh *)
Lemma tanh_range x : -1 < tanh x < 1.
Proof.
  unfold tanh, sinh, cosh. pose proof (exp_pos x). pose proof (exp_pos (-x)).
  split.
  - apply Rmult_lt_reg_r with ((exp x + exp (-x)) / 2); [lra|]. field_simplify; try lra.
  - apply Rmult_lt_reg_r with ((exp x + exp (-x)) / 2); [lra|]. field_simplify; try lra.
Qed.

Lemma tanh_mul x s : - Rabs s <= tanh x * s <= Rabs s.
Proof.
  pose proof (tanh_range x). pose proof (Rabs_pos s).
  assert (E : Rabs (tanh x * s) <= Rabs s).
  { rewrite Rabs_mult. assert (Rabs (tanh x) <= 1) by (apply Rabs_le; lra). nra. }
  pose proof (Rle_abs (tanh x * s)). pose proof (Rle_abs (- (tanh x * s))) as Q. rewrite Rabs_Ropp in Q. lra.
Qed.

(** *** The bounds enforced by a generator *)
Record enforces (lb ub : battr) (g : pgen) : Prop := {
  en_ord : ordered lb ub;
  en_lb : p_lb g = nb lb;
  en_ub : p_ub g = nb ub;
  en_set : match p_cond g with
           | None => nb lb = BNo /\ nb ub = BNo
           | Some c => exists m s, p_bmean g = F m /\ p_bscale g = F s /\
               match c with
               | BscAll => at_least lb (F (m - Rabs s)) /\ at_most ub (F (m + Rabs s))
               | BscGt => nb lb = BNo /\ at_most ub (F (m + Rabs s))
               | BscLt => nb ub = BNo /\ at_least lb (F (m - Rabs s))
               end
           end;
}.

Lemma nb_no_lb lb x : is_lb lb -> nb lb = BNo -> at_least lb (F x).
Proof. destruct lb as [|[]|]; cbn; auto; try discriminate. Qed.
Lemma nb_no_ub ub x : is_ub ub -> nb ub = BNo -> at_most ub (F x).
Proof. destruct ub as [|[]|]; cbn; auto; try discriminate. Qed.
Lemma at_least_le lb x y : is_lb lb -> at_least lb (F x) -> x <= y -> at_least lb (F y).
Proof. destruct lb as [|[]|]; cbn; auto; try lra. Qed.
Lemma at_most_le ub x y : is_ub ub -> at_most ub (F x) -> y <= x -> at_most ub (F y).
Proof. destruct ub as [|[]|]; cbn; auto; try lra. Qed.

Lemma enforced lb ub g raw : enforces lb ub g -> Forall fin raw ->
  Forall (fun a => fin a /\ within lb ub a) (crab_bounds g raw).
Proof.
  intros [[O1 [O2 O3]] _ _ S] H. unfold crab_bounds. destruct (p_cond g) as [c|].
  - destruct S as (m & s & -> & -> & S).
    destruct c; apply Forall_map'; eapply Forall_impl; try exact H; intros a [x ->]; cbn [ftanh fmul fadd fltb];
      try (unfold Rltb; destruct (Rlt_dec _ _)); (split; [eexists; reflexivity|]); pose proof (tanh_mul x s);
      pose proof (Rabs_pos s); destruct S as [S1 S2]; split;
      eauto using nb_no_lb, nb_no_ub;
      try (eapply at_least_le; eauto; lra); try (eapply at_most_le; eauto; lra).
  - destruct S as [S1 S2]. eapply Forall_impl; try exact H; intros a [x ->]; split; [eexists; reflexivity|].
    split; eauto using nb_no_lb, nb_no_ub.
Qed.

(** *** Floats that are numbers *)
Lemma zip_F (f : flt -> flt -> flt) (h : R -> R -> R) : (forall x y, f (F x) (F y) = F (h x y)) ->
  forall a b, length a = length b ->
    zip f (map F a) (map F b) = map F (map (fun k => h (at_ a k) (at_ b k)) (seq 0 (length a))).
Proof.
  intros Hf. induction a as [|x a IH]; intros [|y b] L; try discriminate; auto.
  cbn. f_equal; auto. injection L as L. rewrite (IH b L). f_equal. rewrite <- seq_shift, map_map. reflexivity.
Qed.

Lemma broadcast_F f h a b : (forall x y, f (F x) (F y) = F (h x y)) -> length a = length b ->
  broadcast f (map F a) (map F b) = Ok (map F (map (fun k => h (at_ a k) (at_ b k)) (seq 0 (length a)))).
Proof.
  intros Hf L. unfold broadcast. rewrite !map_length, L, Nat.eqb_refl. rewrite <- L, (zip_F f h); auto.
Qed.
Lemma iadd_F a b : length a = length b ->
  iadd (map F a) (map F b) = Ok (map F (map (fun k => at_ a k + at_ b k) (seq 0 (length a)))).
Proof.
  intros L. unfold iadd. rewrite !map_length, L, Nat.eqb_refl. rewrite <- L, (zip_F fadd Rplus); auto.
Qed.

Lemma fin_zip f a b : (forall x y, fin x -> fin y -> fin (f x y)) -> Forall fin a -> Forall fin b -> Forall fin (zip f a b).
Proof.
  intros Hf Ha. revert b. induction Ha; intros b Hb; cbn; auto. destruct Hb; auto.
Qed.
Lemma fin_map h a : (forall x, fin x -> fin (h x)) -> Forall fin a -> Forall fin (map h a).
Proof. intros Hh Ha. apply Forall_map'. eapply Forall_impl; [|exact Ha]. exact Hh. Qed.
Lemma fin_broadcast f a b c : (forall x y, fin x -> fin y -> fin (f x y)) -> broadcast f a b = Ok c ->
  Forall fin a -> Forall fin b -> Forall fin c.
Proof.
  intros Hf H Ha Hb. unfold broadcast in H. destruct (length a =? length b)%nat.
  - injection H as <-. apply fin_zip; auto.
  - assert (R1 : forall y, b = [y] -> Forall fin (map (fun x => f x y) a))
      by (intros y ->; inversion Hb; subst; apply fin_map; auto).
    assert (R2 : forall x, a = [x] -> Forall fin (map (f x) b))
      by (intros y ->; inversion Ha; subst; apply fin_map; auto).
    destruct b as [|y [|y2 b]]; destruct a as [|x [|x2 a]]; try discriminate;
      apply (f_equal (fun r => match r with Ok c => c | _ => [] end)) in H; cbv beta iota in H; subst c;
      try (exact (R1 _ eq_refl)); exact (R2 _ eq_refl).
Qed.
Lemma fin_iadd a b c : iadd a b = Ok c -> Forall fin a -> Forall fin b -> Forall fin c.
Proof.
  assert (Hf : forall x y, fin x -> fin y -> fin (fadd x y)) by (intros x y [u ->] [v ->]; eexists; reflexivity).
  intros H Ha Hb. unfold iadd in H. destruct (length a =? length b)%nat.
  - injection H as <-. apply fin_zip; auto.
  - destruct b as [|y [|y2 b]]; try discriminate. injection H as <-. inversion Hb; subst.
    apply Forall_map'. eapply Forall_impl; [|exact Ha]. cbn; auto.
Qed.
Lemma fin_fadd x y : fin x -> fin y -> fin (fadd x y).
Proof. intros [u ->] [v ->]. eexists; reflexivity. Qed.
Lemma fin_fmul x y : fin x -> fin y -> fin (fmul x y).
Proof. intros [u ->] [v ->]. eexists; reflexivity. Qed.

Lemma fin_sum g is t : forall s r, crab_sum g is t s = Ok r -> Forall fin s -> Forall fin r.
Proof.
  induction is as [|i is IH]; cbn; intros s r H Hs.
  - injection H as <-; auto.
  - apply bind_inv in H. destruct H as (w & Ew & H). apply bind_inv in H. destruct H as (s' & Es & H).
    apply (IH _ _ H). apply (fin_iadd _ _ _ Es); auto. unfold crab_term in Ew.
    destruct (p_coeffs g); [|discriminate].
    repeat (apply bind_inv in Ew; destruct Ew as (? & ? & Ew)). injection Ew as <-.
    apply Forall_map', Forall_forall. intros. eexists; reflexivity.
Qed.

(** What [gen_pulse] does to a CRAB generator: at most initialise it. *)
Lemma gen_crab_inv rnd c g g' p : gen_crab rnd c g = Ok (g', p) ->
  exists g1 raw, (g1 = g \/ exists c', g1 = g <| p_coeffs := c' |>) /\ ensure rnd g1 = Ok g' /\ p = crab_bounds g' raw /\
    (finite_list (p_guess g') -> finite_list (p_ramp g') -> Forall fin raw).
Proof.
  unfold gen_crab. intros H. apply bind_inv in H. destruct H as (g1 & E1 & H).
  apply bind_inv in H. destruct H as (g2 & E2 & H).
  apply bind_inv in H. destruct H as (p1 & E3 & H). apply bind_inv in H. destruct H as (p2 & E4 & H).
  apply bind_inv in H. destruct H as (p3 & E5 & H). injection H as <- <-.
  exists g1, p3. splits; auto.
  - destruct c as [c|]; [|injection E1 as <-; auto].
    repeat match type of E1 with (if ?b then _ else _) = _ => destruct b end; try discriminate; injection E1 as <-; eauto.
  - intros Hg Hr.
    assert (F1 : Forall fin p1).
    { destruct (ncoef_of g2).
      - injection E3 as <-. apply Forall_forall. intros x Hx. apply repeat_spec in Hx. subst. eexists; reflexivity.
      - apply bind_inv in E3. destruct E3 as (t & Et & E3). eapply fin_sum; [exact E3|].
        apply Forall_forall. intros x Hx. apply repeat_spec in Hx. subst. eexists; reflexivity. }
    assert (F2 : Forall fin p2).
    { destruct (p_gfun g2); [|injection E4 as <-; auto]. unfold apply_guess in E4.
      destruct (p_guess g2) as [gp|]; [|discriminate]. cbn in Hg. destruct g0.
      - eapply fin_broadcast; try exact E4; eauto using fin_fmul.
        apply Forall_map'. eapply Forall_impl; [|exact F1]. intros x Hx. apply fin_fadd; auto. eexists; reflexivity.
      - eapply fin_broadcast; try exact E4; eauto using fin_fadd. }
    destruct (p_ramp g2); [|injection E5 as <-; auto]. cbn in Hr. eapply fin_broadcast; try exact E5; eauto using fin_fmul.
Qed.

(** *** [init_pulse] step by step *)
Lemma init_base_bounds g g' : init_base g = Ok g' ->
  norm_bound (p_lb g) = Ok (p_lb g') /\ norm_bound (p_ub g) = Ok (p_ub g') /\ p_guess g' = p_guess g /\ p_ramp g' = p_ramp g.
Proof.
  unfold init_base. intros H. set (g0 := match p_tau g with None => _ | Some _ => g end) in H.
  assert (Q : p_lb g0 = p_lb g /\ p_ub g0 = p_ub g /\ p_guess g0 = p_guess g /\ p_ramp g0 = p_ramp g)
    by (unfold g0; destruct g as [c pa ps n T sc of [tau|]]; cbn; auto).
  destruct Q as (<- & <- & <- & <-). clearbody g0. clear g.
  apply bind_inv in H. destruct H as (g1 & E1 & H).
  assert (Q : p_lb g1 = p_lb g0 /\ p_ub g1 = p_ub g0 /\ p_guess g1 = p_guess g0 /\ p_ramp g1 = p_ramp g0).
  { destruct (p_uses_time g0); [|injection E1 as <-; auto]. destruct (p_tau g0); [|discriminate].
    apply bind_inv in E1. destruct E1 as (ts & _ & E1). injection E1 as <-. destruct g0; cbn; auto. }
  destruct Q as (<- & <- & <- & <-). clear E1 g0.
  destruct g1. cbn in *. apply bind_inv in H. destruct H as (l & El & H). cbn in H.
  apply bind_inv in H. destruct H as (u & Eu & H). cbn in H. rewrite El, Eu.
  destruct u, l; try (injection H as <-; cbn; auto; fail).
  destruct (fltb _ _); [discriminate|]. injection H as <-; cbn; auto.
Qed.

Lemma init_coeffs_keeps rnd nc v g g' : init_coeffs rnd nc v g = Ok g' ->
  p_lb g' = p_lb g /\ p_ub g' = p_ub g /\ p_guess g' = p_guess g /\ p_ramp g' = p_ramp g.
Proof.
  unfold init_coeffs, set_coeffs. intros H. destruct v.
  - destruct g. destruct nc as [[]|]; cbn in H; apply bind_inv in H; destruct H as (? & ? & H); injection H as <-; cbn; auto.
  - destruct g. destruct nc as [[]|]; cbn in H; injection H as <-; cbn; auto.
Qed.
Lemma init_guess_keeps g g' : init_guess g = Ok g' ->
  p_lb g' = p_lb g /\ p_ub g' = p_ub g /\ p_guess g' = p_guess g /\ p_ramp g' = p_ramp g.
Proof.
  unfold init_guess. intros H. destruct g. cbn -[upper String.eqb] in *. destruct p_action; [|discriminate].
  repeat match type of H with (if ?b then _ else _) = _ => destruct b end; try discriminate; injection H as <-; cbn; auto.
Qed.

Lemma init_freqs_inv rnd nc g g' : init_freqs rnd nc g = Ok g' -> exists fs, g' = g <| p_freqs := Some fs |>.
Proof. unfold init_freqs. intros H. apply bind_inv in H. destruct H as (? & ? & H). injection H as <-. eauto. Qed.

Lemma fold_fin (f : flt -> flt -> flt) l : (forall x y, fin x -> fin y -> fin (f x y)) -> forall x, fin x -> Forall fin l -> fin (fold_left f l x).
Proof. intros Hf. induction l as [|y l IH]; cbn; intros x Hx Hl; auto. inversion Hl; subst. auto. Qed.
Lemma fin_fmaxn x y : fin x -> fin y -> fin (fmaxn x y).
Proof. intros [u ->] [v ->]. cbn. destruct (Rltb u v); eexists; reflexivity. Qed.
Lemma fin_fminn x y : fin x -> fin y -> fin (fminn x y).
Proof. intros [u ->] [v ->]. cbn. destruct (Rltb v u); eexists; reflexivity. Qed.

Lemma guess_scale_fin g s : finite_list (p_guess g) -> guess_scale g = Ok s -> fin s.
Proof.
  unfold guess_scale. intros Hg H. destruct (p_guess g) as [l|]; [|injection H as <-; eexists; reflexivity].
  apply bind_inv in H. destruct H as (hi & E1 & H). apply bind_inv in H. destruct H as (lo & E2 & H). injection H as <-.
  destruct l as [|x l]; [discriminate|]. cbn in Hg. inversion Hg; subst. cbn in E1, E2. injection E1 as <-. injection E2 as <-.
  assert (fin (fold_left fmaxn l x)) by (apply fold_fin; auto using fin_fmaxn).
  assert (fin (fold_left fminn l x)) by (apply fold_fin; auto using fin_fminn).
  destruct H as [a ->], H0 as [b ->]. cbn. destruct (Rltb _ _); eexists; reflexivity.
Qed.

Lemma init_bounds_enforces nc g g' lb ub : ordered lb ub -> p_lb g = nb lb -> p_ub g = nb ub -> finite_list (p_guess g) ->
  init_bounds nc g = Ok g' -> enforces lb ub g' /\ p_guess g' = p_guess g /\ p_ramp g' = p_ramp g.
Proof.
  intros O El Eu Hg H. unfold init_bounds in H. rewrite El, Eu in H.
  assert (Tl : forall l, nb lb = BVal l -> exists x, l = F x /\ lb = BVal (F x)).
  { destruct O as (O & _ & _). destruct lb as [|[]|]; cbn in *; intros l' [= <-]; eauto; contradiction. }
  assert (Tu : forall l, nb ub = BVal l -> exists x, l = F x /\ ub = BVal (F x)).
  { destruct O as (_ & O & _). destruct ub as [|[]|]; cbn in *; intros l' [= <-]; eauto; contradiction. }
  destruct (nb lb) as [|l|] eqn:Nl, (nb ub) as [|u|] eqn:Nu; try discriminate.
  - injection H as <-. destruct g. cbn in *. splits; auto. constructor; cbn; auto; congruence.
  - destruct (Tu _ eq_refl) as (x & -> & ->). apply bind_inv in H. destruct H as (g1 & E1 & H). injection H as <-.
    cbn [fltb] in E1. unfold Rltb in E1. destruct (Rlt_dec 0 x) as [P|P].
    + injection E1 as <-. destruct g. cbn in *. splits; auto. constructor; cbn; auto; try congruence.
      exists 0, x. splits; auto. rewrite Rabs_pos_eq; lra.
    + apply bind_inv in E1. destruct E1 as (gs & Es & E1). injection E1 as <-.
      destruct (guess_scale_fin _ _ Hg Es) as [y ->]. destruct g. cbn in *. splits; auto. constructor; cbn; auto; try congruence.
      eexists _, _. splits; auto. lra.
  - destruct (Tl _ eq_refl) as (x & -> & ->). apply bind_inv in H. destruct H as (g1 & E1 & H). injection H as <-.
    cbn [fltb] in E1. unfold Rltb in E1. destruct (Rlt_dec x 0) as [P|P].
    + injection E1 as <-. destruct g. cbn in *. splits; auto. constructor; cbn; auto; try congruence.
      exists 0, (Rabs x). splits; auto. rewrite Rabs_Rabsolu, Rabs_left; lra.
    + apply bind_inv in E1. destruct E1 as (gs & Es & E1). injection E1 as <-.
      destruct (guess_scale_fin _ _ Hg Es) as [y ->]. destruct g. cbn in *. splits; auto. constructor; cbn; auto; try congruence.
      eexists _, _. splits; auto. lra.
  - destruct (Tl _ eq_refl) as (x & -> & ->). destruct (Tu _ eq_refl) as (y & -> & ->). injection H as <-.
    destruct g. cbn in *. splits; auto. destruct O as (_ & _ & O). cbn in O. constructor; cbn; auto; try congruence.
    { unfold ordered; cbn; auto. }
    eexists _, _. splits; auto; rewrite Rabs_pos_eq; lra.
Qed.

Lemma init_crab_enforces rnd nc v g g' lb ub : ordered lb ub ->
  (p_lb g = lb /\ p_ub g = ub \/ p_lb g = nb lb /\ p_ub g = nb ub) ->
  finite_list (p_guess g) -> init_crab rnd nc v g = Ok g' ->
  enforces lb ub g' /\ p_guess g' = p_guess g /\ p_ramp g' = p_ramp g.
Proof.
  intros O Eb Hg H. unfold init_crab in H.
  apply bind_inv in H. destruct H as (g1 & E1 & H). destruct (init_base_bounds _ _ E1) as (L1 & U1 & G1 & R1).
  assert (Q1 : p_lb g1 = nb lb /\ p_ub g1 = nb ub).
  { pose proof (nb_ord _ _ O) as O'. destruct O as (O1 & O2 & _), O' as (O1' & O2' & _).
    destruct Eb as [[E2 E3]|[E2 E3]]; rewrite E2 in L1; rewrite E3 in U1.
    - rewrite nb_usable in L1, U1 by auto. split; congruence.
    - rewrite nb_usable, nb_nb in L1, U1 by auto. split; congruence. }
  apply bind_inv in H. destruct H as (g2 & E2 & H). destruct (init_coeffs_keeps _ _ _ _ _ E2) as (L2 & U2 & G2 & R2).
  apply bind_inv in H. destruct H as (g3 & E3 & H).
  assert (Q3 : p_lb g3 = p_lb g2 /\ p_ub g3 = p_ub g2 /\ p_guess g3 = p_guess g2 /\ p_ramp g3 = p_ramp g2).
  { destruct (p_guess g2) eqn:Eg; [|injection E3 as <-; auto].
    apply init_guess_keeps in E3. destruct E3 as (-> & -> & -> & ->). destruct g2; cbn in *; auto. }
  destruct Q3 as (L3 & U3 & G3 & R3).
  apply bind_inv in H. destruct H as (g4 & E4 & H).
  apply (init_bounds_enforces _ _ _ lb ub) in E4; auto; try (intuition congruence).
  destruct E4 as ([Q1' Q2' Q3' Q4'] & G4 & R4). apply init_freqs_inv in H. destruct H as [fs ->].
  destruct g4. cbn in *. splits; try (intuition congruence). constructor; cbn; auto.
Qed.
