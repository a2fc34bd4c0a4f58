(** Parameters of a CRAB generator through construction and [reset]. *)
From Coq Require Import Reals Lra String.
From RecordUpdate Require Import RecordUpdate.
From Verif.Model Require Import Str Base Float PulseGen OptVars Crab.
From Verif.Lib Require Import Lists.
From Verif.Spec Require Import Evolution Pulses Crabs.
From Verif.Proofs Require Import DynRun PulseFacts PulseShapes PulseWalks OptMore CrabFacts CrabMore CrabInit.
Local Open Scope R_scope.
Set Bullet Behavior "Strict Subproofs".

Lemma set_set a g : holds a (setattr g a).
Proof. unfold holds. destruct g, a; reflexivity. Qed.

Lemma set_other a b g : name_of b <> name_of a -> holds a g -> holds a (setattr g b).
Proof.
  unfold holds. intros N H. enough (E : setattr (setattr g b) a = setattr (setattr g a) b) by congruence. clear H.
  destruct g. destruct b, a; try (exfalso; apply N; reflexivity); reflexivity.
Qed.

Lemma fold_other a l : Forall (fun b => name_of b <> name_of a) l -> forall g, holds a g -> holds a (fold_left setattr l g).
Proof. induction 1; cbn; auto using set_other. Qed.

Lemma fold_gives ps a g : gives ps a -> holds a (fold_left setattr ps g).
Proof.
  intros (l1 & l2 & -> & H). rewrite fold_left_app. cbn. apply fold_other; auto. apply set_set.
Qed.

Lemma holds_freqs a g fs : holds a g -> holds a (g <| p_freqs := fs |>).
Proof. unfold holds. intros H. destruct g, a; cbn in *; injection H; intros; subst; reflexivity. Qed.
Lemma holds_randf a g b : name_of a <> "randomize_freqs"%string -> holds a g -> holds a (g <| p_randf := b |>).
Proof. unfold holds. intros N H. destruct g, a; cbn in *; try congruence; injection H; intros; subst; reflexivity. Qed.
Lemma holds_fix a g b : name_of a <> "fix_freqs"%string -> holds a g -> holds a (g <| p_fix := b |>).
Proof. unfold holds. intros N H. destruct g, a; cbn in *; try congruence; injection H; intros; subst; reflexivity. Qed.
Lemma holds_nbasis a g b : name_of a <> "num_basis_funcs"%string -> holds a g -> holds a (g <| p_nbasis := b |>).
Proof. unfold holds. intros N H. destruct g, a; cbn in *; try congruence; injection H; intros; subst; reflexivity. Qed.

Lemma params_keep ps g : p_params (fold_left setattr ps g) = p_params g.
Proof. revert g. induction ps as [|a ps IH]; intros g; cbn; auto. rewrite IH. destruct g, a; reflexivity. Qed.

Lemma apply_params_self g : apply_params [] g = fold_left setattr (p_params g) g.
Proof. unfold apply_params. destruct g as [c pa [|a ps]]; reflexivity. Qed.

Lemma params_apply g : p_params (apply_params [] g) = p_params g.
Proof. rewrite apply_params_self. apply params_keep. Qed.

Lemma reset_base_params g : p_params (reset_base g) = p_params g.
Proof. unfold reset_base. rewrite params_apply. destruct g as [c [d|]]; reflexivity. Qed.

Lemma reset_crab_holds g a : gives (p_params g) a -> holds a (reset_crab g).
Proof.
  intros H. unfold reset_crab. rewrite apply_params_self.
  match goal with |- holds a (fold_left setattr (p_params ?x) ?x) => set (g1 := x) end.
  assert (E : p_params g1 = p_params g). { rewrite <- (reset_base_params g). unfold g1. destruct (reset_base g); reflexivity. }
  rewrite E. apply fold_gives; auto.
Qed.

Lemma new_crab_holds d nc ps fx a : gives ps a ->
  name_of a <> "fix_freqs"%string -> name_of a <> "randomize_freqs"%string -> (fx = false -> name_of a <> "num_basis_funcs"%string) ->
  holds a (new_crab d nc ps fx).
Proof.
  intros H N1 N2 N3. unfold new_crab, reset.
  set (g0 := blank CCrab d ps <| p_ncoef := nc |>).
  assert (E : p_cls g0 = CCrab /\ p_params g0 = ps) by (split; reflexivity). destruct E as [E1 E2]. rewrite E1. clearbody g0. subst ps.
  pose proof (reset_crab_holds g0 a H) as Q. generalize dependent (reset_crab g0). clear g0 H E1. intros g Q. cbn zeta.
  assert (Q1 : holds a (g <| p_freqs := None |> <| p_randf := true |> <| p_fix := fx |>)).
  { apply holds_fix; auto. apply holds_randf; auto. apply holds_freqs; auto. }
  destruct fx.
  - replace (negb _) with false by (destruct g; reflexivity). auto.
  - replace (negb _) with true by (destruct g; reflexivity). apply holds_nbasis; auto.
Qed.

(** *** What [reset] leaves without a parameter dictionary *)
Definition parent_ok (d : option parent) : Prop :=
  match d with None => True | Some d => (0 < pa_n d)%nat /\ pa_T d <> 0 /\ (pa_n d <= S (length (pa_tau d)))%nat end.

Lemma reset_view g : p_cls g = CCrab -> p_params g = [] -> let h := reset g in
  p_cls h = CCrab /\ p_uses_time h = true /\ p_lb h = BNo /\ p_ub h = BNo /\ p_guess h = None /\ p_gfun h = None /\ p_ramp h = None /\
  p_fix h = p_fix g /\ p_nbasis h = 2%nat /\ p_ready h = false /\ p_params h = [] /\ p_parent h = p_parent g /\ p_ncoef h = p_ncoef g /\
  match p_parent g with
  | Some d => p_n h = pa_n d /\ p_T h = pa_T d /\ p_tau h = Some (pa_tau d)
  | None => p_n h = 100%nat /\ p_T h = 1 /\ p_tau h = None
  end.
Proof.
  intros C P. destruct g. cbn in C, P. subst. destruct p_parent as [d|]; (split; [reflexivity|]);
    repeat (split; [reflexivity|]); reflexivity.
Qed.
Lemma reset_facts g : p_cls g = CCrab -> p_params g = [] -> let g' := reset g in
  p_cls g' = CCrab /\ p_fix g' = p_fix g /\ p_nbasis g' = 2%nat /\ p_ready g' = false /\ p_params g' = [] /\ p_parent g' = p_parent g.
Proof. intros C P. destruct (reset_view g C P) as (?&?&?&?&?&?&?&?&?&?&?&?&_). cbn zeta. splits; assumption. Qed.
Lemma reset_prepared g f : p_cls g = CCrab -> p_params g = [] -> parent_ok (p_parent g) ->
  prepared (reset g) None None f.
Proof.
  intros C P D. destruct (reset_view g C P) as (V1&V2&V3&V4&V5&V6&V7&_&_&_&_&_&_&V).
  generalize dependent (reset g). intros h V1 V2 V3 V4 V5 V6 V7 V.
  assert (Q : (0 < p_n h)%nat /\ p_T h <> 0 /\ match p_tau h with None => True | Some l => (p_n h <= S (length l))%nat end).
  { destruct (p_parent g) as [d|]; destruct V as (-> & -> & ->); [exact D|]. splits; [lia|lra|auto]. }
  destruct Q as (Q1 & Q2 & Q3). constructor; auto; rewrite ?V3, ?V4, ?V5, ?V7; try reflexivity; auto. apply no_ordered.
Qed.

(** *** What [reset] leaves with a parameter dictionary *)
Lemma fold_keep {X} (get : pgen -> X) ps g : (forall a h, get (setattr h a) = get h) -> get (fold_left setattr ps g) = get g.
Proof. intros H. revert g. induction ps; intros; cbn; auto. rewrite IHps. auto. Qed.
Lemma fold_pick {X} (get : pgen -> X) pick ps g :
  (forall a h, get (setattr h a) = match pick a with Some y => y | None => get h end) ->
  get (fold_left setattr ps g) = in_force ps pick (get g).
Proof.
  intros H. unfold in_force. revert g. induction ps as [|a ps IH]; intros; cbn; auto.
  rewrite IH, H. destruct (pick a); auto.
Qed.
Lemma in_force_from {X} ps pick (a b : X) : in_force ps pick a = in_force ps pick b \/ (forall x : X, in_force ps pick x = x).
Proof.
  unfold in_force. revert a b. induction ps as [|p ps IH]; intros; cbn; auto. destruct (pick p); auto.
Qed.
Lemma in_force_twice {X} ps pick (x : X) : in_force ps pick (in_force ps pick x) = in_force ps pick x.
Proof. destruct (in_force_from ps pick (in_force ps pick x) x) as [E|E]; auto. Qed.

Ltac kept := match goal with |- ?get (fold_left setattr ?ps ?g) = _ => apply (fold_keep get ps g) end;
  let a := fresh in intros a ?; destruct a; reflexivity.
Ltac picked := match goal with |- ?get (fold_left setattr ?ps ?g) = _ => apply (fold_pick get) end;
  let a := fresh in intros a ?; destruct a; reflexivity.
Lemma fold_view ps g : let h := fold_left setattr ps g in
  p_cls h = p_cls g /\ p_uses_time h = p_uses_time g /\ p_gfun h = p_gfun g /\ p_ready h = p_ready g /\
  p_lb h = in_force ps (fun a => match a with ALb b => Some b | _ => None end) (p_lb g) /\
  p_ub h = in_force ps (fun a => match a with AUb b => Some b | _ => None end) (p_ub g) /\
  p_guess h = in_force ps (fun a => match a with AGuess b => Some b | _ => None end) (p_guess g) /\
  p_action h = in_force ps (fun a => match a with AAction b => Some b | _ => None end) (p_action g) /\
  p_ramp h = in_force ps (fun a => match a with ARamp b => Some b | _ => None end) (p_ramp g) /\
  p_fix h = in_force ps (fun a => match a with AFixFreqs b => Some b | _ => None end) (p_fix g) /\
  p_nbasis h = in_force ps (fun a => match a with ANumBasis b => Some b | _ => None end) (p_nbasis g) /\
  p_n h = in_force ps (fun a => match a with ANum b => Some b | _ => None end) (p_n g) /\
  p_T h = in_force ps (fun a => match a with ATime b => Some b | _ => None end) (p_T g) /\
  p_tau h = in_force ps (fun a => match a with ATau b => Some b | _ => None end) (p_tau g).
Proof. cbn zeta. splits; first [kept|picked]. Qed.

Lemma reset_dict g : p_cls g = CCrab -> let h := reset g in let ps := p_params g in
  p_cls h = CCrab /\ p_uses_time h = true /\ p_gfun h = None /\ p_ready h = false /\ p_lb h = lb_in ps /\ p_ub h = ub_in ps /\
  p_guess h = guess_in ps /\ p_action h = action_in ps /\ p_ramp h = ramp_in ps /\
  p_fix h = fix_in ps (p_fix g) /\ p_nbasis h = columns_in ps /\
  p_n h = slots_in (p_parent g) ps /\ p_T h = time_in (p_parent g) ps /\ p_tau h = tau_in (p_parent g) ps.
Proof.
  intros C. cbn zeta. unfold reset. rewrite C. unfold reset_crab. rewrite apply_params_self.
  assert (H : let h := reset_base g in let ps := p_params g in p_cls h = CCrab /\ p_params h = ps /\ p_ready h = false /\ p_lb h = lb_in ps /\ p_ub h = ub_in ps /\
    p_ramp h = ramp_in ps /\ p_fix h = fix_in ps (p_fix g) /\
    p_n h = slots_in (p_parent g) ps /\ p_T h = time_in (p_parent g) ps /\ p_tau h = tau_in (p_parent g) ps).
  { cbn zeta. pose proof (reset_base_params g) as P. revert P. unfold reset_base. rewrite apply_params_self.
    match goal with |- context [fold_left setattr (p_params ?x) ?x] => set (g1 := x) end.
    assert (E : p_params g1 = p_params g) by (unfold g1; destruct g as [c [d|]]; reflexivity). rewrite E. intros P.
    destruct (fold_view (p_params g) g1) as (V1&V2&V3&V4&V5&V6&V7&V8&V9&V10&V11&V12&V13&V14).
    rewrite V1, V4, V5, V6, V9, V10, V12, V13, V14, P. clear - C. unfold g1. clear g1.
    destruct g as [c [d|]]; cbn in C; subst; splits; reflexivity. }
  cbn zeta in H. generalize dependent (reset_base g). intros g1 (H1&H2&H3&H4&H5&H6&H7&H8&H9&H10).
  match goal with |- context [fold_left setattr (p_params ?x) ?x] => set (g2 := x) end.
  assert (E : p_params g2 = p_params g) by (unfold g2; destruct g1; exact H2). rewrite E.
  destruct (fold_view (p_params g) g2) as (V1&V2&V3&V4&V5&V6&V7&V8&V9&V10&V11&V12&V13&V14).
  assert (W : p_cls g2 = CCrab /\ p_uses_time g2 = true /\ p_gfun g2 = None /\ p_ready g2 = false /\ p_lb g2 = p_lb g1 /\
    p_ub g2 = p_ub g1 /\ p_guess g2 = None /\ p_action g2 = Some "MODULATE"%string /\ p_ramp g2 = p_ramp g1 /\ p_fix g2 = p_fix g1 /\
    p_nbasis g2 = 2%nat /\ p_n g2 = p_n g1 /\ p_T g2 = p_T g1 /\ p_tau g2 = p_tau g1).
  { unfold g2. clear - H1 H3. destruct g1; cbn in *; splits; auto. }
  clearbody g2. destruct W as (W1&W2&W3&W4&W5&W6&W7&W8&W9&W10&W11&W12&W13&W14).
  rewrite W1 in V1. rewrite W2 in V2. rewrite W3 in V3. rewrite W4 in V4. rewrite W5, H4 in V5. rewrite W6, H5 in V6.
  rewrite W7 in V7. rewrite W8 in V8. rewrite W9, H6 in V9. rewrite W10, H7 in V10. rewrite W11 in V11. rewrite W12, H8 in V12.
  rewrite W13, H9 in V13. rewrite W14, H10 in V14.
  unfold lb_in, ub_in, ramp_in, fix_in, slots_in, time_in, tau_in in V5, V6, V9, V10, V12, V13, V14.
  apply (fun e => eq_trans e (in_force_twice _ _ _)) in V5, V6, V9, V10, V12, V13, V14. revert V1 V2 V3 V4 V5 V6 V7 V8 V9 V10 V11 V12 V13 V14.
  generalize (fold_left setattr (p_params g) g2). clear. intros h. intros. splits;
    match goal with H : _ = ?y |- _ = ?y => refine (eq_trans _ H); destruct h; reflexivity end.
Qed.

Lemma reset_sensible g guess ramp f : p_cls g = CCrab -> sensible (p_parent g) (p_params g) guess ramp f ->
  prepared (reset g) guess ramp f.
Proof.
  intros C [S1 S2 S3 S4 S5 S6 S7 S8]. destruct (reset_dict g C) as (V1&V2&V3&V4&V5&V6&V7&V8&V9&V10&V11&V12&V13&V14).
  generalize dependent (reset g). intros h V1 V2 V3 V4 V5 V6 V7 V8 V9 V10 V11 V12 V13 V14.
  constructor; rewrite ?V12, ?V13, ?V14, ?V5, ?V6, ?V7, ?V8, ?V9; auto. destruct guess; auto.
Qed.

(** The assignments of the CRAB constructor after [reset]. *)
Lemma fix_usable g f fx : prepared g None None f -> p_nbasis g = 2%nat ->
  let h := g <| p_fix := fx |> in
  usable (if negb (p_fix h) then h <| p_nbasis := S (p_nbasis h) |> else h) None None f.
Proof.
  intros [] B. destruct g, fx; cbn in *; subst; (split; [constructor; cbn; auto|unfold enough_columns; cbn; lia]).
Qed.
Lemma new_usable d nc f fx : parent_ok d -> usable (new_crab d nc [] fx) None None f.
Proof.
  intros D. unfold new_crab. set (g0 := blank CCrab d [] <| p_ncoef := nc |>).
  assert (E : p_cls g0 = CCrab /\ p_params g0 = [] /\ p_parent g0 = d) by (splits; reflexivity). destruct E as (E1 & E2 & E3). clearbody g0.
  subst d. pose proof (reset_prepared g0 f E1 E2 D) as P. destruct (reset_facts g0 E1 E2) as (_ & _ & B & _).
  generalize dependent (reset g0). intros g P B. apply fix_usable; auto.
Qed.
Lemma new_facts' d nc fx : let g := new_crab d nc [] fx in
  p_cls g = CCrab /\ p_fix g = fx /\ p_params g = [] /\ p_parent g = d.
Proof.
  unfold new_crab. set (g0 := blank CCrab d [] <| p_ncoef := nc |>).
  assert (E : p_cls g0 = CCrab /\ p_params g0 = [] /\ p_parent g0 = d) by (splits; reflexivity). destruct E as (E1 & E2 & E3). clearbody g0.
  destruct (reset_facts g0 E1 E2) as (Q1 & _ & _ & _ & Q2 & Q3). generalize dependent (reset g0). intros g Q1 Q2 Q3. cbn zeta.
  destruct g, fx; cbn in *; splits; auto; congruence.
Qed.

(** A generator whose rows are too short for the frequency it wants there. *)
Lemma short_rows rnd g c nc t : p_ready g = true -> p_ncoef g = Some (S nc) -> p_fix g = false -> p_coeffs g = Some c ->
  shape (S nc) 2 c -> p_time g = Some t -> gen_crab rnd None g = Raise IndexError.
Proof.
  intros H1 H2 H3 H4 [L Fo] H5. unfold gen_crab, ensure, ncoef_of, time_of. cbn [bind]. rewrite H1. cbn [bind]. rewrite H2, H5. cbn [bind].
  unfold range. cbn [seq crab_sum]. unfold crab_term. rewrite H4, H3. destruct c as [|r c]; [discriminate|]. cbn [get nth_error bind].
  inversion Fo; subst. destruct r as [|a [|b [|? ?]]]; try discriminate. reflexivity.
Qed.

Lemma short_rows_any rnd n nc g t guess ramp f m s c : set_up n (S nc) g t guess ramp f m s -> ~ enough_columns g ->
  p_coeffs g = Some c -> shape (S nc) (p_nbasis g) c -> gen_crab rnd None g = Raise IndexError.
Proof.
  intros HS NE H4 [L Fo]. unfold gen_crab, ensure, ncoef_of, time_of. cbn [bind]. rewrite (su_ready _ _ _ _ _ _ _ _ _ HS). cbn [bind].
  rewrite (su_nc _ _ _ _ _ _ _ _ _ HS), (su_time _ _ _ _ _ _ _ _ _ HS). cbn [bind].
  unfold range. cbn [seq crab_sum]. unfold crab_term. rewrite H4. destruct c as [|r c]; [discriminate|]. cbn [get nth_error bind].
  inversion Fo as [|? ? Lr _]; subst. unfold enough_columns in NE. rewrite <- Lr in NE.
  destruct (p_fix g).
  - destruct (su_freqs _ _ _ _ _ _ _ _ _ HS) as (fs & -> & Lf). destruct fs as [|w fs]; [discriminate|]. cbn [get nth_error bind].
    destruct r as [|a [|b r]]; try reflexivity. exfalso. apply NE. cbn. lia.
  - destruct r as [|a [|b [|e r]]]; try reflexivity. exfalso. apply NE. cbn. lia.
Qed.

Lemma some_coeffs nc g : exists k, coeffs_in_force nc g = S k.
Proof.
  unfold coeffs_in_force. destruct nc as [[|k]|]; eauto; (destruct (p_ncoef g) as [[|q]|]; eauto; destruct (p_parent g); eauto;
    destruct (Nat.max 2 (pa_dim p - 1)) eqn:Em; eauto; lia).
Qed.

Lemma short_fails rnd nc g guess ramp f fuel rnd' : prepared g guess ramp f -> ~ enough_columns g ->
  exists g1, init_pulse rnd (ICrab nc None) g = Ok g1 /\ gen_pulse fuel rnd' GNone g1 = Raise IndexError.
Proof.
  intros HP NE. destruct (init_crab_ok rnd nc None g _ _ _ HP I) as (g1 & t & m & s & c & E & [I1 _ I3 I4 _ _] & Ec & Sc & _).
  exists g1. split; [unfold init_pulse; rewrite (us_cls _ _ _ _ HP); exact E|]. unfold gen_pulse. rewrite (su_cls _ _ _ _ _ _ _ _ _ I1).
  destruct (some_coeffs nc g) as [k NZ]. rewrite NZ in *. eapply (short_rows_any rnd' _ _ g1 _ _ _ _ _ _ c I1); auto.
  - unfold enough_columns. rewrite I3, I4. auto.
  - rewrite I3. auto.
Qed.

Lemma new_dict d nc ps fx guess ramp f : sensible d ps guess ramp f ->
  let g := new_crab d nc ps fx in prepared g guess ramp f /\ p_fix g = fx /\ p_nbasis g = ((if fx then 0 else 1) + columns_in ps)%nat /\
  p_n g = slots_in d ps.
Proof.
  intros HS. cbn zeta. unfold new_crab. set (g0 := blank CCrab d ps <| p_ncoef := nc |>).
  assert (E : p_cls g0 = CCrab /\ p_params g0 = ps /\ p_parent g0 = d) by (splits; reflexivity). destruct E as (E1 & E2 & E3).
  pose proof (reset_sensible g0 guess ramp f E1) as P. rewrite E2, E3 in P. specialize (P HS).
  destruct (reset_dict g0 E1) as (_&_&_&_&_&_&_&_&_&_&V11&V12&_). rewrite E2, E3 in *. clear E1 E2 E3. generalize dependent (reset g0). clear g0.
  intros g [] B N. destruct g, fx; cbn in *; subst; splits; auto; constructor; cbn; auto.
Qed.
