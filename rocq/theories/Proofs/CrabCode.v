(** The variables of the CRAB optimisers as a coding of the amplitudes. *)
From Coq Require Import Reals Lra.
From RecordUpdate Require Import RecordUpdate.
From Verif.Model Require Import Str Base Float PulseGen Dyn OptVars OptRun Crab.
From Verif.Lib Require Import Lists.
From Verif.Spec Require Import Evolution Pulses Crabs Runs.
From Verif.Proofs Require Import DynRun PulseFacts PulseShapes OptMore CrabFacts CrabMore CrabInit.
Local Open Scope R_scope.
Set Bullet Behavior "Strict Subproofs".

Definition num_of (x : flt) : R := match x with F x => x | _ => 0 end.
Definition nums_of (o : option (list flt)) : option (list R) := option_map (map num_of) o.
Definition the_time (g : pgen) : list R := match p_time g with Some t => t | None => [] end.
Definition the_fun (g : pgen) : gfun := match p_gfun g with Some f => f | None => PulseGen.Add end.

(** The pulse the generator makes with the variables [v]. *)
Definition crab_pulse (g : pgen) (v : list R) : list R :=
  map (crab_amp g (the_time g) (nums_of (p_guess g)) (nums_of (p_ramp g)) (the_fun g) (num_of (p_bmean g))
                (num_of (p_bscale g)) (rows (ncoef_of g) (p_nbasis g) v)) (seq 0 (p_n g)).

Record ready_gen (n : nat) (g : pgen) : Prop := {
  rg_up : exists t guess ramp f m s, set_up n (ncoef_of g) g t guess ramp f m s;
  rg_basis : enough_columns g;
  rg_nc : p_ncoef g = Some (ncoef_of g);
  rg_coeffs : exists c, p_coeffs g = Some c /\ shape (ncoef_of g) (p_nbasis g) c;
}.

Lemma nums_of_eq o l : nums o l -> nums_of o = l.
Proof. unfold nums, nums_of. intros ->. destruct l as [l|]; cbn; auto. f_equal. rewrite map_map. cbn. apply map_id. Qed.

Lemma bound_map_ext g m s m' s' y : (p_cond g <> None -> m = m' /\ s = s') -> bound_map g m s y = bound_map g m' s' y.
Proof. unfold bound_map. intros H. destruct (p_cond g); auto. destruct H as [-> ->]; auto. discriminate. Qed.

Lemma with_coeffs_eq g c v : crab_pulse (g <| p_coeffs := c |>) v = crab_pulse g v.
Proof. destruct g; reflexivity. Qed.

Lemma ready_gen_pulse n g v fuel rnd : ready_gen n g -> length v = p_nvars g ->
  let g' := g <| p_coeffs := Some (rows (ncoef_of g) (p_nbasis g) v) |> in
  set_coeffs v g = Ok g' /\ ready_gen n g' /\ gen_pulse fuel rnd GNone g' = Ok (g', map F (crab_pulse g v)) /\
  length (crab_pulse g v) = n.
Proof.
  intros [(t & guess & ramp & f & m & s & U) Hb Hnc (c & Hc & Sc)] Hv g'.
  assert (Hv' : length v = (ncoef_of g * p_nbasis g)%nat) by (rewrite Hv; apply (su_vars _ _ _ _ _ _ _ _ _ U)).
  assert (E0 : set_coeffs v g = Ok g').
  { unfold set_coeffs. rewrite Hnc. unfold reshape. rewrite Hv', Nat.eqb_refl. reflexivity. }
  assert (U' : set_up n (ncoef_of g) g' t guess ramp f m s).
  { unfold g'. destruct U. destruct g. cbn in *. constructor; cbn; auto. }
  assert (S' : shape (ncoef_of g) (p_nbasis g) (rows (ncoef_of g) (p_nbasis g) v)) by (apply rows_shape; auto).
  splits; auto.
  - constructor.
    + assert (Q : ncoef_of g' = ncoef_of g) by (unfold g'; destruct g; reflexivity). rewrite Q. eauto 10.
    + unfold g'. destruct g; exact Hb.
    + unfold g'. destruct g; exact Hnc.
    + exists (rows (ncoef_of g) (p_nbasis g) v). unfold g'. destruct g. cbn in *. auto.
  - unfold gen_pulse. rewrite (su_cls _ _ _ _ _ _ _ _ _ U').
    rewrite (gen_crab_eq rnd n (ncoef_of g) g' t guess ramp f m s (rows (ncoef_of g) (p_nbasis g) v) U').
    + do 3 f_equal. unfold crab_pulse. rewrite (su_n _ _ _ _ _ _ _ _ _ U). apply map_ext. intros k.
      destruct U as [_ _ _ _ _ _ U8 _ U10 U11 U12 _ U14]. unfold the_time. rewrite U8.
      rewrite (nums_of_eq _ _ U10), (nums_of_eq _ _ U12).
      assert (Q : forall y, bound_map g' m s y = bound_map g (num_of (p_bmean g)) (num_of (p_bscale g)) y).
      { intros y. transitivity (bound_map g m s y); [unfold g'; destruct g; reflexivity|]. apply bound_map_ext.
        intros Hn. destruct (U14 Hn) as [-> ->]. auto. }
      unfold crab_amp. rewrite Q. f_equal. f_equal.
      assert (Q2 : forall c i, freq_of g' c i = freq_of g c i) by (intros; unfold g'; destruct g; reflexivity).
      assert (Q3 : fourier_sum (rows (ncoef_of g) (p_nbasis g) v) (freq_of g' (rows (ncoef_of g) (p_nbasis g) v)) (at_ t k) =
                   fourier_sum (rows (ncoef_of g) (p_nbasis g) v) (freq_of g (rows (ncoef_of g) (p_nbasis g) v)) (at_ t k)).
      { unfold fourier_sum. f_equal. }
      rewrite Q3. destruct guess; [|reflexivity]. destruct U11 as [_ U11]. unfold the_fun. rewrite U11. auto.
    + unfold g'. destruct g; exact Hb.
    + unfold g'. destruct g; reflexivity.
    + unfold g'. destruct g; exact S'.
  - unfold crab_pulse. rewrite map_length, seq_length. apply (su_n _ _ _ _ _ _ _ _ _ U).
Qed.

Lemma ready_again n g fuel rnd g1 p : ready_gen n g -> gen_pulse fuel rnd GNone g = Ok (g1, p) -> g1 = g.
Proof.
  intros [(t & guess & ramp & f & m & s & U) Hb Hnc (c & Hc & Sc)] H. unfold gen_pulse in H.
  rewrite (su_cls _ _ _ _ _ _ _ _ _ U) in H. rewrite (gen_crab_eq _ _ _ _ _ _ _ _ _ _ c U Hb Hc Sc) in H. congruence.
Qed.

Lemma coeffs_eta g c : p_coeffs g = c -> g <| p_coeffs := c |> = g.
Proof. destruct g; cbn; intros <-; reflexivity. Qed.

Lemma in_use_ready n g : in_use n g -> ready_gen n g.
Proof.
  induction 1.
  - destruct H as [H Hb]. unfold init_pulse in H1. rewrite (us_cls _ _ _ _ H) in H1.
    assert (Hv : match v with Some v => length v = (coeffs_in_force nc g * p_nbasis g)%nat | None => True end).
    { destruct v as [v|]; auto. unfold init_crab in H1.
      apply bind_inv in H1. destruct H1 as (g2 & E2 & H1). apply init_base_inv in E2. destruct E2 as (tm & lb & ub & E2 & _).
      apply bind_inv in H1. destruct H1 as (g3 & E3 & H1). unfold init_coeffs in E3.
      assert (Q : coeffs_in_force nc g2 = coeffs_in_force nc g /\ p_nbasis g2 = p_nbasis g) by (subst g2; clear; destruct g; auto).
      destruct Q as [<- <-]. clear - E3. unfold coeffs_in_force. unfold set_coeffs in E3. destruct g2. cbn -[Nat.max Nat.mul rows] in *.
      unfold estimate_num_coeffs, DEF_NUM_COEFFS, reshape in E3.
      destruct nc as [[|k]|]; [destruct p_ncoef as [[|q]|]| |destruct p_ncoef as [[|q]|]]; cbn -[Nat.max Nat.mul rows] in *;
        match type of E3 with context [(?a =? ?b)%nat] => destruct (Nat.eqb_spec a b); [assumption|discriminate] end. }
    destruct (init_crab_ok rnd nc v g guess ramp f H Hv) as (g2 & t & m & s & c & E & [I1 I2 I3 I4 I5 I6] & Ec & Sc & _).
    rewrite E in H1. injection H1 as <-. rewrite H0 in I1.
    assert (Q : ncoef_of g2 = coeffs_in_force nc g) by (unfold ncoef_of; rewrite (su_nc _ _ _ _ _ _ _ _ _ I1); auto).
    constructor.
    + rewrite Q. eauto 10.
    + unfold enough_columns in *. rewrite I3, I4. auto.
    + rewrite Q. apply (su_nc _ _ _ _ _ _ _ _ _ I1).
    + rewrite Q, I3. eauto.
  - assert (Hv : length v = p_nvars g).
    { unfold set_coeffs in H0. rewrite (rg_nc _ _ IHin_use) in H0. unfold reshape in H0.
      destruct (Nat.eqb_spec (length v) (ncoef_of g * p_nbasis g)); [|discriminate].
      destruct (rg_up _ _ IHin_use) as (t & guess & ramp & f & m & s & U). rewrite (su_vars _ _ _ _ _ _ _ _ _ U). auto. }
    destruct (ready_gen_pulse n g v 0 (fun _ => 0) IHin_use Hv) as (E & R & _). rewrite E in H0. injection H0 as <-. auto.
  - rewrite (ready_again _ _ _ _ _ _ IHin_use H0). auto.
Qed.

Lemma ready_vars n g : ready_gen n g -> exists v, get_vars_of g = Ok v /\ length v = p_nvars g /\
  rows (ncoef_of g) (p_nbasis g) v = match p_coeffs g with Some c => c | None => [] end.
Proof.
  intros [(t & guess & ramp & f & m & s & U) Hb Hnc (c & Hc & Sc)]. unfold get_vars_of, get_optim_var_vals.
  rewrite (su_cls _ _ _ _ _ _ _ _ _ U), Hc. exists (concat c).
  destruct (rows_flatten _ _ _ Sc) as [E L]. splits; auto. rewrite (su_vars _ _ _ _ _ _ _ _ _ U). auto.
Qed.

(** *** Columns *)
Lemma reals_F l : reals (map F l) = Ok l.
Proof. induction l as [|x l IH]; cbn; auto. rewrite IH. auto. Qed.

(** The generators with the variables [x]. *)
Fixpoint load (gens : list pgen) (x : list R) : list pgen :=
  match gens with
  | [] => []
  | g :: l => g <| p_coeffs := Some (rows (ncoef_of g) (p_nbasis g) (firstn (p_nvars g) x)) |> :: load l (skipn (p_nvars g) x)
  end.
Fixpoint pulses (gens : list pgen) (x : list R) : list (list R) :=
  match gens with
  | [] => []
  | g :: l => crab_pulse g (firstn (p_nvars g) x) :: pulses l (skipn (p_nvars g) x)
  end.

Lemma columns_ok rnd n gens : Forall (ready_gen n) gens -> forall x, length x = count_vars gens ->
  crab_columns rnd n x gens = Ok (load gens x, pulses gens x) /\ Forall (ready_gen n) (load gens x) /\
  Forall (fun c => length c = n) (pulses gens x).
Proof.
  induction 1 as [|g gens Hg _ IH]; intros x L; cbn [crab_columns load pulses]; auto.
  change (length x = (p_nvars g + count_vars gens)%nat) in L.
  assert (L1 : length (firstn (p_nvars g) x) = p_nvars g) by (rewrite firstn_length; lia).
  destruct (ready_gen_pulse n g _ 0 rnd Hg L1) as (E1 & R1 & E2 & L2).
  unfold set_vars_of. destruct (rg_up _ _ Hg) as (t & guess & ramp & f & m & s & U).
  rewrite (su_cls _ _ _ _ _ _ _ _ _ U), E1. cbn [bind]. rewrite E2. cbn [bind]. rewrite reals_F. cbn [bind].
  unfold column. rewrite L2, Nat.eqb_refl. cbn [bind].
  destruct (IH (skipn (p_nvars g) x)) as (E & F1 & F2); [rewrite skipn_length; lia|]. rewrite E. cbn [bind].
  splits; auto.
Qed.

Lemma columns_short rnd n gens : Forall (ready_gen n) gens -> forall x, (length x < count_vars gens)%nat ->
  crab_columns rnd n x gens = Raise ValueError.
Proof.
  induction 1 as [|g gens Hg _ IH]; intros x L; [cbn in L; lia|].
  cbn [crab_columns]. change (length x < p_nvars g + count_vars gens)%nat in L.
  destruct (rg_up _ _ Hg) as (t & guess & ramp & f & m & s & U).
  unfold set_vars_of. rewrite (su_cls _ _ _ _ _ _ _ _ _ U).
  destruct (le_lt_dec (p_nvars g) (length x)) as [Le|Lt].
  - assert (L1 : length (firstn (p_nvars g) x) = p_nvars g) by (rewrite firstn_length; lia).
    destruct (ready_gen_pulse n g _ 0 rnd Hg L1) as (E1 & R1 & E2 & L2). rewrite E1. cbn [bind]. rewrite E2. cbn [bind].
    rewrite reals_F. cbn [bind]. unfold column. rewrite L2, Nat.eqb_refl. cbn [bind].
    rewrite IH by (rewrite skipn_length; lia). reflexivity.
  - unfold set_coeffs. rewrite (rg_nc _ _ Hg). unfold reshape.
    pose proof (su_vars _ _ _ _ _ _ _ _ _ U) as V.
    destruct (Nat.eqb_spec (length (firstn (p_nvars g) x)) (ncoef_of g * p_nbasis g)) as [E|_]; auto.
    rewrite firstn_length in E. lia.
Qed.

Lemma columns_other rnd n n' g gens x : ready_gen n' g -> n' <> n -> n' <> 1%nat -> (p_nvars g <= length x)%nat ->
  crab_columns rnd n x (g :: gens) = Raise ValueError.
Proof.
  intros Hg N1 N2 L. cbn [crab_columns].
  assert (L1 : length (firstn (p_nvars g) x) = p_nvars g) by (rewrite firstn_length; lia).
  destruct (ready_gen_pulse n' g _ 0 rnd Hg L1) as (E1 & R1 & E2 & L2).
  unfold set_vars_of. destruct (rg_up _ _ Hg) as (t & guess & ramp & f & m & s & U).
  rewrite (su_cls _ _ _ _ _ _ _ _ _ U), E1. cbn [bind]. rewrite E2. cbn [bind]. rewrite reals_F. cbn [bind].
  unfold column. rewrite L2. destruct (Nat.eqb_spec n' n); [contradiction|].
  destruct (crab_pulse g _) as [|y [|z l]]; cbn in L2; auto. congruence.
Qed.

Lemma load_facts gens : forall x, length (load gens x) = length gens /\ map p_nvars (load gens x) = map p_nvars gens /\
  length (pulses gens x) = length gens.
Proof.
  induction gens as [|g gens IH]; intros x; cbn [load pulses length map]; auto. destruct (IH (skipn (p_nvars g) x)) as (E1 & E2 & E3).
  splits; cbn; congruence.
Qed.

Lemma skipn_add {X} i j (l : list X) : skipn i (skipn j l) = skipn (j + i) l.
Proof. revert l. induction j; intros l; cbn; auto. destruct l; auto. apply skipn_nil. Qed.

Lemma load_nth gens : forall x j g', nth_error (load gens x) j = Some g' ->
  exists g, nth_error gens j = Some g /\
    g' = g <| p_coeffs := Some (rows (ncoef_of g) (p_nbasis g) (part x (before gens j) (p_nvars g))) |> /\
    nth_error (pulses gens x) j = Some (crab_pulse g (part x (before gens j) (p_nvars g))).
Proof.
  induction gens as [|g gens IH]; intros x [|j] g' H; try discriminate; cbn [load pulses nth_error] in *.
  - injection H as <-. exists g. auto.
  - destruct (IH _ _ _ H) as (g0 & E & E1 & E2). exists g0. unfold part, before in *. cbn [firstn map list_sum fold_right] in *.
    rewrite skipn_add in *. auto.
Qed.

Lemma loaded_vars n g v : ready_gen n g -> length v = p_nvars g ->
  get_vars_of (g <| p_coeffs := Some (rows (ncoef_of g) (p_nbasis g) v) |>) = Ok v.
Proof.
  intros [(t & guess & ramp & f & m & s & U) _ Hnc _] L. pose proof (su_cls _ _ _ _ _ _ _ _ _ U) as C.
  rewrite (su_vars _ _ _ _ _ _ _ _ _ U) in L. clear U. unfold get_vars_of, get_optim_var_vals.
  pose proof (flatten_rows _ _ _ L) as E. unfold flatten in E.
  set (c := rows _ _ v) in *. clearbody c. destruct g. cbn in *. rewrite C, E. auto.
Qed.

Lemma load_vars gens n : Forall (ready_gen n) gens -> forall x, length x = count_vars gens ->
  exists vs, map_res get_vars_of (load gens x) = Ok vs /\ concat vs = x.
Proof.
  induction 1 as [|g gens Hg _ IH]; intros x L; cbn [load map_res].
  - exists []. split; auto. destruct x; auto. discriminate.
  - change (length x = (p_nvars g + count_vars gens)%nat) in L.
    assert (L1 : length (firstn (p_nvars g) x) = p_nvars g) by (rewrite firstn_length; lia).
    rewrite (loaded_vars n _ _ Hg L1). cbn [bind].
    destruct (IH (skipn (p_nvars g) x)) as (vs & E & C); [rewrite skipn_length; lia|]. rewrite E. cbn [bind].
    eexists. split; [reflexivity|]. cbn. rewrite C. apply firstn_skipn.
Qed.

(** Reading the variables and loading them again changes nothing. *)
Lemma load_self gens n : Forall (ready_gen n) gens ->
  exists vs, map_res get_vars_of gens = Ok vs /\ length (concat vs) = count_vars gens /\ load gens (concat vs) = gens /\
    Forall2 (fun g v => get_vars_of g = Ok v /\ length v = p_nvars g) gens vs.
Proof.
  induction 1 as [|g gens Hg _ (vs & E & L & S & F2)]; cbn [map_res].
  - exists []. auto.
  - destruct (ready_vars _ _ Hg) as (v & Ev & Lv & Rv). rewrite Ev. cbn [bind]. rewrite E. cbn [bind].
    exists (v :: vs). splits; auto.
    + cbn [concat]. rewrite app_length, L, Lv. reflexivity.
    + cbn [load concat].
      assert (F : firstn (p_nvars g) (v ++ concat vs) = v)
        by (rewrite <- Lv, firstn_app, Nat.sub_diag, firstn_all; cbn [firstn]; apply app_nil_r).
      assert (K : skipn (p_nvars g) (v ++ concat vs) = concat vs)
        by (rewrite <- Lv, skipn_app, skipn_all, Nat.sub_diag; reflexivity).
      rewrite F, K, S, Rv. f_equal. destruct (rg_coeffs _ _ Hg) as (c & Ec & _). rewrite Ec. apply coeffs_eta; auto.
Qed.

(** *** The coding *)
Lemma Forall2_len {X Y} (P : X -> Y -> Prop) l l' : Forall2 P l l' -> length l = length l'.
Proof. induction 1; cbn; congruence. Qed.

Section Coding.
Context {A : Alg}.
Variables n m : nat.
Variable rnd : nat -> R.
Variable gens0 : list pgen.
Hypothesis Hready : Forall (ready_gen n) gens0.
Hypothesis Hm : length gens0 = m.

Definition same_but_coeffs (g0 g : pgen) : Prop := exists c, g = g0 <| p_coeffs := Some c |>.
Definition crab_okg (G : pulse_gens) : Prop :=
  exists gens, G = PgList gens /\ Forall (ready_gen n) gens /\ Forall2 same_but_coeffs gens0 gens.
Definition crab_decode (x : list R) : amps := map (row_of (pulses gens0 x)) (range n).

Lemma same_load gens : Forall2 same_but_coeffs gens0 gens -> forall x,
  Forall2 same_but_coeffs gens0 (load gens x) /\ pulses gens x = pulses gens0 x /\ count_vars gens = count_vars gens0.
Proof.
  clear Hready Hm. induction 1 as [|g0 g l0 l (c & ->) _ IH]; intros x; cbn [load pulses]; auto.
  assert (Q : p_nvars (g0 <| p_coeffs := Some c |>) = p_nvars g0 /\ ncoef_of (g0 <| p_coeffs := Some c |>) = ncoef_of g0 /\ p_nbasis (g0 <| p_coeffs := Some c |>) = p_nbasis g0)
    by (destruct g0; auto). destruct Q as (Q1 & Q2 & Q3). rewrite Q1, Q2, Q3, with_coeffs_eq.
  destruct (IH (skipn (p_nvars g0) x)) as (E1 & E2 & E3). splits.
  - constructor; auto. eexists. destruct g0; reflexivity.
  - f_equal; auto.
  - unfold count_vars in *. cbn [map list_sum fold_right]. rewrite Q1. f_equal; auto.
Qed.

Lemma row_shape cs : length cs = m -> shape n m (map (row_of cs) (range n)).
Proof.
  intros L. split; [rewrite map_length; apply seq_length|]. apply Forall_forall. intros r Hr. apply in_map_iff in Hr.
  destruct Hr as (k & <- & _). unfold row_of. rewrite map_length. auto.
Qed.

Lemma crab_coding : coding n m (crab_to_amps (A:=A) rnd) crab_get_vars crab_gens_ok
  (fun x => length x = count_vars gens0) crab_decode crab_okg.
Proof.
  constructor.
  - intros x d G a Ea Sa Hn (d' & Hc) (gens & -> & Rg & Sg) Hx. unfold crab_to_amps. rewrite Hc. cbn [bind].
    assert (L : length gens = m) by (rewrite <- Hm; symmetry; eapply Forall2_len; eauto).
    rewrite L, Nat.eqb_refl. destruct (same_load gens Sg x) as (S1 & S2 & S3).
    destruct (columns_ok rnd n gens Rg x) as (E & R1 & R2); [congruence|].
    rewrite Hn, E. cbn [bind]. exists (PgList (load gens x)). split.
    + unfold crab_decode. rewrite S2. auto.
    + exists (load gens x). auto.
  - intros x Hx. apply row_shape. destruct (load_facts gens0 x) as (_ & _ & ->). auto.
  - intros d G a Ea Sa (gens & -> & Rg & Sg). unfold crab_get_vars. destruct (load_self gens n Rg) as (vs & -> & _). cbn [bind]. eauto.
  - intros d G a Ea Sa (d' & Hc) (gens & -> & Rg & Sg). unfold crab_gens_ok. rewrite Hc.
    assert (L : length gens = m) by (rewrite <- Hm; symmetry; eapply Forall2_len; eauto).
    rewrite L, Nat.eqb_refl. cbn. apply forallb_forall. intros g Hg. rewrite (Forall_forall _ _) in Rg.
    destruct (rg_up _ _ (Rg g Hg)) as (t & guess & ramp & f & mm & s & U). unfold is_crab_gen.
    rewrite (su_cls _ _ _ _ _ _ _ _ _ U). auto.
Qed.

Lemma okg_start : crab_okg (PgList gens0).
Proof.
  exists gens0. splits; auto. clear Hm. clear A. generalize Hready. generalize gens0. clear Hready gens0. intros l HH.
  induction HH as [|g l Hg _ IH]; constructor; auto.
  destruct (rg_coeffs _ _ Hg) as (c & Ec & _). exists c. rewrite coeffs_eta; auto.
Qed.
End Coding.
