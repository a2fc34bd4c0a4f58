(** The five functions in terms of the parts they build. *)
From Verif.Model Require Import Build.
From Verif.Spec Require Import OptionRules Constructed Builds.
From Verif.Proofs Require Import OptionFacts ConstructFacts BuildFacts BuildParts.
Local Open Scope string_scope.
Local Open Scope list_scope.
Set Bullet Behavior "Strict Subproofs".

Lemma Forall2_len {A B} (R : A -> B -> Prop) l l' : Forall2 R l l' -> List.length l = List.length l'.
Proof. induction 1; cbn; auto. Qed.
Lemma Forall2_seq {B} (R : nat -> B -> Prop) n : forall s l, Forall2 R (seq s n) l -> forall k c, nth_error l k = Some c -> R (s + k) c.
Proof.
  induction n as [|n IH]; intros s l F k c Hk; inversion F as [|x y xs ys H F' E1 E2]; subst; [destruct k; discriminate|].
  destruct k as [|k]; cbn in Hk.
  - injection Hk as <-. now rewrite Nat.add_0_r.
  - rewrite <- Nat.add_succ_comm. eauto.
Qed.
Lemma bound_ok b j v : bound_given b -> bound_for b j = Ok v -> v = meant_for b j.
Proof.
  unfold bound_for. intros [-> | [(x & -> & N) | (l & -> & N)]].
  - cbn. congruence.
  - cbn. unfold eq0. destruct (Req_EM_T x 0); [contradiction|]. cbn. congruence.
  - cbn. destruct l as [|y l]; [contradiction|]. cbn [bind]. set (l0 := y :: l) in *.
    destruct (nth_error l0 j) as [w|] eqn:E.
    + intros [= <-]. symmetry. now apply nth_error_nth.
    + apply nth_error_None in E. rewrite nth_overflow by auto. unfold last_of.
      assert (L : l0 = rev (rev l0)) by (symmetry; apply rev_involutive). destruct (rev l0) as [|z r]; [discriminate|].
      intros [= <-]. rewrite L. cbn [rev]. now rewrite last_last.
Qed.

Section Build.
Variable make : klass -> list obj -> dict -> val -> Res dict.
Variable setter : klass -> string -> option (val -> dict -> Res dict).
Variable named : klass -> string -> bool.
Variable gen : nat -> obj -> Res (obj * val).
Variable check_ctrls : val -> Res (val * nat).
Variable check_others : val -> val -> val -> Res unit.
Notation call := (call make setter named gen check_ctrls check_others).
Notation plain c := (plain (setter c)).

Lemma call_inv e a h h' b : call e a h = (h', Ok b) -> well_formed h a ->
  keeps keyword_keys h h' /\ keyed h' /\ exists a' ctrls n m pt it d0 d1,
    check_ctrls (a_ctrls a) = Ok (ctrls, n) /\ settled e a h a' h' /\ alg_defaults a' = Ok (m, pt, it) /\
    build_dyn make setter h' a' m pt it = Ok (b_cfg b, d0, b_prop b, b_fid b, b_tslot b) /\
    build_opt make setter named h' a' m (b_cfg b) d0 = Ok (d1, b_opt b) /\
    configure setter a' ctrls d1 = Ok (b_dyn b) /\
    build_pgen make setter gen h' a' it (b_dyn b) n = Ok (b_pgen b).
Proof.
  intros E W. destruct (call_reaches make setter named gen check_ctrls check_others e a h W) as (Kp & K & R). rewrite E in R, K, Kp. cbn [fst snd] in *.
  split; [exact Kp|]. split; [exact K|]. destruct (R b eq_refl) as (a' & ctrls & n & C & A & S). apply assemble_inv in A.
  destruct A as (m & pt & it & d0 & d1 & A1 & A2 & A3 & A4 & A5). exists a', ctrls, n, m, pt, it, d0, d1. auto 10.
Qed.

Lemma given_apply h p k v o o' : apply setter (load h p) o = Ok o' -> given h p k = Some v -> keyed h -> plain (o_class o) k ->
  dget (o_attrs o') k = Some v.
Proof.
  intros A G K P. destruct p as [r|w]; [|discriminate]. cbn in *. eapply apply_gives; eauto.
Qed.

Lemma alg_crab e a a' : passes e a a' -> is_crab e = true \/ alg_is (a_alg a) "CRAB" -> is_text (upper_safe (a_alg a')) "CRAB" = true.
Proof.
  intros P Cr. rewrite (ps_alg _ _ _ P). destruct Cr as [-> | (t & Ht & U)]; [reflexivity|].
  destruct (is_crab e); [reflexivity|]. rewrite Ht. cbn. now rewrite U.
Qed.
Lemma alg_not_crab e a a' : passes e a a' -> is_crab e = false -> ~ alg_is (a_alg a) "CRAB" -> is_text (upper_safe (a_alg a')) "CRAB" = false.
Proof.
  intros P E N. rewrite (ps_alg _ _ _ P), E. destruct (a_alg a) eqn:Ea; try reflexivity. cbn.
  destruct (String.eqb_spec (upper s) "CRAB"); [|auto]. exfalso. apply N. unfold alg_is. eauto.
Qed.

Lemma crab_list e a h h' b : call e a h = (h', Ok b) -> well_formed h a -> is_crab e = true \/ alg_is (a_alg a) "CRAB" ->
  exists l ctrls n a', b_pgen b = Many l /\ check_ctrls (a_ctrls a) = Ok (ctrls, n) /\ List.length l = n /\ settled e a h a' h' /\ keyed h' /\ keeps keyword_keys h h' /\
  exists action it m pt, alg_defaults a' = Ok (m, pt, it) /\
    (truthy it = Ok true -> action = Some (opt_item (a_init_pulse_params a') h' "pulse_action" VNone)) /\
    forall j c, nth_error l j = Some c ->
      crab_made make setter a' (b_dyn b) (opt_item (a_alg_params a') h' "num_coeffs" VNone) (opt_item (a_alg_params a') h' "fix_frequency" (VBool true))
               (opt_item (a_alg_params a') h' "init_coeff_scaling" VNone) (opt_item (a_alg_params a') h' "crab_pulse_params" VNone) action j c.
Proof.
  intros E W Cr. destruct (call_inv e a h h' b E W) as (Kp & K & a' & ctrls & n & m & pt & it & d0 & d1 & C & S & Ad & _ & _ & _ & P).
  apply build_pgen_inv in P. rewrite (alg_crab e a a' (sd_passes _ _ _ _ _ S) Cr) in P. destruct P as (l & action & Hl & _ & F & _ & Ac).
  exists l, ctrls, n, a'. split; [auto|]. split; [auto|]. split; [rewrite <- (Forall2_len _ _ _ F); apply seq_length|].
  split; [auto|]. split; [auto|]. split; [auto|]. exists action, it, m, pt. split; [auto|]. split; [intros T; now destruct (Ac T)|]. intros j c Hj.
  exact (Forall2_seq _ _ _ _ F j c Hj).
Qed.

(** ** The optimiser *)
Lemma opt_inv e a h h' b : call e a h = (h', Ok b) -> well_formed h a -> fresh make ->
  plain (o_class (b_opt b)) "params" -> plain (o_class (b_opt b)) "method_params" -> given h (a_optim_params a) "method_params" = None ->
  keeps keyword_keys h h' /\ keyed h' /\ exists a' o1 o2 o3 o4 tc0 tc g,
    settled e a h a' h' /\ o_class o1 = o_class (b_opt b) /\ o_class o2 = o_class (b_opt b) /\ o_class o3 = o_class (b_opt b) /\ o_class o4 = o_class (b_opt b) /\
    o_class tc0 = TermConds /\
    (forall v, dget (o_attrs o1) "params" = Some v -> v = VNone) /\
    (forall v, dget (o_attrs o3) "method_params" = Some v -> v = VNone) /\
    (plain (o_class (b_opt b)) "amp_lbound" -> dget (o_attrs o1) "amp_lbound" = Some (a_amp_lbound a)) /\
    (plain (o_class (b_opt b)) "amp_ubound" -> dget (o_attrs o1) "amp_ubound" = Some (a_amp_ubound a)) /\
    apply setter (load h' (a_optim_params a)) o1 = Ok o2 /\
    steps setter (limits e a) tc0 tc /\
    assign setter "termination_conditions" (VObj (o_attrs tc)) o2 = Ok o3 /\
    apply_method setter named (load h' (a_method_params a')) o3 = Ok o4 /\
    truthy (a_gen_stats a) = Ok g /\ steps setter (stat_steps a' g) o4 (b_opt b).
Proof.
  intros E W F Pp Pm Nm. destruct (call_inv e a h h' b E W) as (Kp & K & a' & ctrls & n & m & pt & it & d0 & d1 & C & S & _ & _ & Op & _ & _).
  split; [auto|]. split; [auto|]. pose proof (sd_passes _ _ _ _ _ S) as Ps.
  apply build_opt_inv in Op. destruct Op as (c & q0 & q1 & q2 & t0 & tc & q3 & q4 & g & _ & C0 & Mk & S1 & Ap & Ct & St & As & Am & Tg & S4 & _).
  exists a', q1, q2, q3, q4, t0, tc, g.
  pose proof (steps_class _ _ _ _ S1) as Q1. pose proof (apply_class _ _ _ _ Ap) as Q2. pose proof (assign_class _ _ _ _ _ As) as Q3.
  pose proof (steps_class _ _ _ _ S4) as Q5.
  assert (Q4 : o_class q4 = o_class q3) by (unfold apply_method in Am; step Am x Ex; injection Am as <-; reflexivity).
  assert (CC : o_class (b_opt b) = o_class q0) by congruence. rewrite CC in *.
  destruct (F _ _ _ _ Mk) as [F1 F2].
  assert (G1 : forall k, plain (o_class q0) k -> dget (o_attrs q1) k = or_else (final_of [("alg", a_alg a'); ("method", m); ("amp_lbound", a_amp_lbound a'); ("amp_ubound", a_amp_ubound a')] k) (dget (o_attrs q0) k))
    by (intros k P; exact (steps_get _ _ _ _ S1 k P)).
  split; [auto|]. split; [congruence|]. split; [congruence|]. split; [congruence|]. split; [congruence|]. split; [auto|].
  assert (Fp : forall v, dget (o_attrs q1) "params" = Some v -> v = VNone) by (rewrite (G1 _ Pp); exact F1).
  split; [exact Fp|]. rewrite (ps_optim_params _ _ _ Ps) in Ap.
  split.
  { rewrite (assign_get _ "method_params" _ _ _ _ As) by (rewrite Q2, Q1; auto). cbn [String.eqb Ascii.eqb Bool.eqb].
    rewrite (apply_other setter _ "method_params" _ _ _ Ap); auto; [|rewrite Q1; auto| |discriminate].
    - rewrite (G1 _ Pm). exact F2.
    - rewrite (keeps_given _ _ _ _ _ Kp); auto; [apply (wf_opt _ _ W)|]. cbn. intuition discriminate. }
  split; [intros P; rewrite (G1 _ P); cbn; now rewrite (ps_lbound _ _ _ Ps)|].
  split; [intros P; rewrite (G1 _ P); cbn; now rewrite (ps_ubound _ _ _ Ps)|].
  split; [auto|]. split; [|rewrite (ps_stats _ _ _ Ps) in Tg; auto 10].
  unfold limits. rewrite (ps_targ _ _ _ Ps), (ps_grad _ _ _ Ps), (ps_iter _ _ _ Ps), (ps_wall _ _ _ Ps) in St. exact St.
Qed.

(** ** Arguments that make no difference *)
Definition no_type (a : args) : args := a <| a_tslot_type := VNone |>.
Definition no_params (a : args) : args := a <| a_tslot_params := NoDict None |>.
Lemma old_method_pure a h : old_method a h =
  let x := put_missing "max_metric_corr" "max_metric_corr" (a_max_metric_corr a) (a_method_params a) h in
  let y := put_missing "accuracy_factor" "accuracy_factor" (a_accuracy_factor a) (snd x) (fst x) in
  (fst y, with_method a (snd y)).
Proof.
  unfold old_method, with_method. destruct (is_none (a_optim_alg a)).
  - cbv zeta. destruct (put_missing "max_metric_corr" _ _ _ _) as [h1 p1]. cbn [fst snd]. destruct (put_missing _ _ _ _ _) as [h2 p2]. cbn [fst snd].
    destruct a. vm_compute. reflexivity.
  - cbv zeta. change (a_max_metric_corr (a <| a_optim_method := a_optim_alg a |>)) with (a_max_metric_corr a).
    change (a_method_params (a <| a_optim_method := a_optim_alg a |>)) with (a_method_params a).
    change (a_accuracy_factor (a <| a_optim_method := a_optim_alg a |>)) with (a_accuracy_factor a).
    destruct (put_missing "max_metric_corr" _ _ _ _) as [h1 p1]. cbn [fst snd]. destruct (put_missing _ _ _ _ _) as [h2 p2]. reflexivity.
Qed.
Definition fid_put (a : args) (h : heap) : heap * arg :=
  let x := put_missing "phase_option" "phase_option" (a_phase_option a) (a_fid_params a) h in
  put_missing "fid_err_scale_factor" "scale_factor" (a_fid_err_scale_factor a) (snd x) (fst x).
Lemma deprecated_pure a h : deprecated a h =
  let x := old_method a h in
  let y := fid_put a (fst x) in
  (fst y, with_mode (snd x <| a_fid_params := snd y |>)).
Proof.
  unfold deprecated, old_fid, fid_put. rewrite old_method_pure. cbv zeta. cbn [fst snd].
  destruct (put_missing "max_metric_corr" _ _ _ _) as [h1 p1]. cbn [fst snd]. destruct (put_missing "accuracy_factor" _ _ _ _) as [h2 p2]. cbn [fst snd].
  change (a_phase_option (with_method a p2)) with (a_phase_option a). change (a_fid_params (with_method a p2)) with (a_fid_params a).
  change (a_fid_err_scale_factor (with_method a p2)) with (a_fid_err_scale_factor a).
  destruct (put_missing "phase_option" _ _ _ _) as [h3 p3]. cbn [fst snd]. destruct (put_missing _ _ _ _ _) as [h4 p4]. cbn [fst snd].
  rewrite old_mode_eq. reflexivity.
Qed.
Lemma old_method_type a h t : old_method (a <| a_tslot_type := t |>) h = (fst (old_method a h), snd (old_method a h) <| a_tslot_type := t |>).
Proof. rewrite !old_method_pure. reflexivity. Qed.
Lemma old_method_params a h t : old_method (a <| a_tslot_params := t |>) h = (fst (old_method a h), snd (old_method a h) <| a_tslot_params := t |>).
Proof. rewrite !old_method_pure. reflexivity. Qed.
Lemma deprecated_type a h t : fst (deprecated (a <| a_tslot_type := t |>) h) = fst (deprecated a h) /\
  no_type (snd (deprecated (a <| a_tslot_type := t |>) h)) = no_type (snd (deprecated a h)).
Proof. rewrite !deprecated_pure. rewrite old_method_type. split; reflexivity. Qed.
Lemma deprecated_params a h p : deprecated (a <| a_tslot_params := p |>) h = (fst (deprecated a h), snd (deprecated a h) <| a_tslot_params := p |>).
Proof. rewrite !deprecated_pure, old_method_params. reflexivity. Qed.
Lemma forwarded_type a : forwarded (no_type a) = forwarded a.
Proof. destruct a. vm_compute. reflexivity. Qed.
Lemma forwarded_params a p : forwarded (a <| a_tslot_params := p |>) = forwarded a.
Proof. destruct a. vm_compute. reflexivity. Qed.
Notation optimize_pulse := (optimize_pulse make setter named gen check_ctrls check_others).
Lemma optimize_type a h t : optimize_pulse (a <| a_tslot_type := t |>) h = optimize_pulse a h.
Proof.
  unfold Build.optimize_pulse. destruct (deprecated_type a h t) as [E1 E2]. destruct (deprecated (a <| a_tslot_type := t |>) h) as [h1 a1], (deprecated a h) as [h2 a2].
  cbn [fst snd] in *. subst h2. rewrite <- (forwarded_type a1), E2, (forwarded_type a2).
  change (a_alg a1) with (a_alg (no_type a1)). rewrite E2. reflexivity.
Qed.
Lemma optimize_params a h p : optimize_pulse (a <| a_tslot_params := p |>) h = optimize_pulse a h.
Proof.
  unfold Build.optimize_pulse. rewrite deprecated_params. destruct (deprecated a h) as [h2 a2]. cbn [fst snd]. rewrite forwarded_params. reflexivity.
Qed.
Notation unitary := (optimize_pulse_unitary make setter named gen check_ctrls check_others).
(** What the inner call of the unitary function sees. *)
Definition inner (a : args) (fp : arg) : args :=
  forwarded (a <| a_dyn_type := VStr "UNIT" |> <| a_prop_type := VStr "DEF" |> <| a_fid_type := VStr "DEF" |> <| a_fid_params := fp |>).
Lemma inner_type a t fp : inner (old_mode (a <| a_tslot_type := t |>)) fp = inner (old_mode a) fp.
Proof. rewrite !old_mode_eq. destruct a. vm_compute. reflexivity. Qed.
Lemma inner_params a t fp : inner (old_mode (a <| a_tslot_params := t |>)) fp = inner (old_mode a) fp.
Proof. rewrite !old_mode_eq. destruct a. vm_compute. reflexivity. Qed.
Lemma mode_phase a : a_phase_option (old_mode a) = a_phase_option a /\ a_fid_params (old_mode a) = a_fid_params a.
Proof. rewrite old_mode_eq. split; reflexivity. Qed.
Lemma unitary_same a a' h : fst (old_method a' h) = fst (old_method a h) ->
  a_phase_option (snd (old_method a' h)) = a_phase_option (snd (old_method a h)) ->
  a_fid_params (snd (old_method a' h)) = a_fid_params (snd (old_method a h)) ->
  (forall fp, inner (old_mode (snd (old_method a' h))) fp = inner (old_mode (snd (old_method a h))) fp) ->
  unitary a' h = unitary a h.
Proof.
  unfold Build.optimize_pulse_unitary. destruct (old_method a' h) as [h1 a1], (old_method a h) as [h2 a2]. cbn [fst snd].
  intros <- Ep Ef I. fold (inner (old_mode a1)). destruct (mode_phase a1) as [-> ->], (mode_phase a2) as [-> ->]. rewrite Ep, Ef.
  destruct (is_none _); [|destruct (a_fid_params a2) as [r|[x|]]]; cbv zeta; unfold inner in I; rewrite ?I; reflexivity.
Qed.
Lemma unitary_type a h t : unitary (a <| a_tslot_type := t |>) h = unitary a h.
Proof. apply unitary_same; rewrite old_method_type; try reflexivity. intros fp. apply inner_type. Qed.
Lemma unitary_params a h t : unitary (a <| a_tslot_params := t |>) h = unitary a h.
Proof. apply unitary_same; rewrite old_method_params; try reflexivity. intros fp. apply inner_params. Qed.
Lemma crab_type a t ap gp : crab_args (a <| a_tslot_type := t |>) ap gp = crab_args a ap gp <| a_tslot_type := t |>.
Proof. destruct a. vm_compute. reflexivity. Qed.
Lemma crab_params a t ap gp : crab_args (a <| a_tslot_params := t |>) ap gp = crab_args a ap gp <| a_tslot_params := t |>.
Proof. destruct a. vm_compute. reflexivity. Qed.
Lemma crab_type' a t ap gp : crab_args (a <| a_tslot_type := t |>) ap gp <| a_phase_option := a_phase_option a |> =
  crab_args a ap gp <| a_phase_option := a_phase_option a |> <| a_tslot_type := t |>.
Proof. destruct a. vm_compute. reflexivity. Qed.
Lemma crab_params' a t ap gp : crab_args (a <| a_tslot_params := t |>) ap gp <| a_phase_option := a_phase_option a |> =
  crab_args a ap gp <| a_phase_option := a_phase_option a |> <| a_tslot_params := t |>.
Proof. destruct a. vm_compute. reflexivity. Qed.
Record same_used (a a' : args) : Prop := {
  su_drift : a_drift a' = a_drift a;
  su_initial : a_initial a' = a_initial a;
  su_target : a_target a' = a_target a;
  su_num_tslots : a_num_tslots a' = a_num_tslots a;
  su_evo_time : a_evo_time a' = a_evo_time a;
  su_tau : a_tau a' = a_tau a;
  su_amp_lbound : a_amp_lbound a' = a_amp_lbound a;
  su_amp_ubound : a_amp_ubound a' = a_amp_ubound a;
  su_fid_err_targ : a_fid_err_targ a' = a_fid_err_targ a;
  su_min_grad : a_min_grad a' = a_min_grad a;
  su_max_iter : a_max_iter a' = a_max_iter a;
  su_max_wall_time : a_max_wall_time a' = a_max_wall_time a;
  su_alg : a_alg a' = a_alg a;
  su_alg_params : a_alg_params a' = a_alg_params a;
  su_optim_params : a_optim_params a' = a_optim_params a;
  su_optim_method : a_optim_method a' = a_optim_method a;
  su_method_params : a_method_params a' = a_method_params a;
  su_dyn_type : a_dyn_type a' = a_dyn_type a;
  su_dyn_params : a_dyn_params a' = a_dyn_params a;
  su_prop_type : a_prop_type a' = a_prop_type a;
  su_prop_params : a_prop_params a' = a_prop_params a;
  su_fid_type : a_fid_type a' = a_fid_type a;
  su_fid_params : a_fid_params a' = a_fid_params a;
  su_tslot_params : a_tslot_params a' = a_tslot_params a;
  su_init_pulse_type : a_init_pulse_type a' = a_init_pulse_type a;
  su_init_pulse_params : a_init_pulse_params a' = a_init_pulse_params a;
  su_pulse_scaling : a_pulse_scaling a' = a_pulse_scaling a;
  su_pulse_offset : a_pulse_offset a' = a_pulse_offset a;
  su_ramping_pulse_type : a_ramping_pulse_type a' = a_ramping_pulse_type a;
  su_ramping_pulse_params : a_ramping_pulse_params a' = a_ramping_pulse_params a;
  su_gen_stats : a_gen_stats a' = a_gen_stats a;
  su_stats : stats_of a' = stats_of a }.
Lemma crab_gens_ext a a' dyn nc ff ics cpp ramp js : same_used a a' -> forall g,
  crab_gens make setter gen a' dyn nc ff ics cpp ramp js g = crab_gens make setter gen a dyn nc ff ics cpp ramp js g.
Proof.
  intros S. induction js as [|j js IH]; intros g; [reflexivity|]. cbn [crab_gens]. unfold crab_gen at 1. rewrite (su_amp_lbound _ _ S), (su_amp_ubound _ _ S).
  fold (crab_gen make setter gen a dyn nc ff ics cpp ramp j g).
  destruct (crab_gen _ _ _ _ _ _ _ _ _ _ _ _) as [[c g1]|]; [|reflexivity]. cbn [bind]. rewrite IH. reflexivity.
Qed.
Lemma pgen_ext h a a' it dyn n : same_used a a' -> build_pgen make setter gen h a' it dyn n = build_pgen make setter gen h a it dyn n.
Proof.
  intros S. unfold build_pgen. cbv zeta. rewrite ?(su_drift _ _ S), ?(su_initial _ _ S), ?(su_target _ _ S), ?(su_num_tslots _ _ S), ?(su_evo_time _ _ S), ?(su_tau _ _ S), ?(su_amp_lbound _ _ S), ?(su_amp_ubound _ _ S), ?(su_fid_err_targ _ _ S), ?(su_min_grad _ _ S), ?(su_max_iter _ _ S), ?(su_max_wall_time _ _ S), ?(su_alg _ _ S), ?(su_alg_params _ _ S), ?(su_optim_params _ _ S), ?(su_optim_method _ _ S), ?(su_method_params _ _ S), ?(su_dyn_type _ _ S), ?(su_dyn_params _ _ S), ?(su_prop_type _ _ S), ?(su_prop_params _ _ S), ?(su_fid_type _ _ S), ?(su_fid_params _ _ S), ?(su_tslot_params _ _ S), ?(su_init_pulse_type _ _ S), ?(su_init_pulse_params _ _ S), ?(su_pulse_scaling _ _ S), ?(su_pulse_offset _ _ S), ?(su_ramping_pulse_type _ _ S), ?(su_ramping_pulse_params _ _ S), ?(su_gen_stats _ _ S), ?(su_stats _ _ S).
  destruct (truthy (a_ramping_pulse_type a)) as [t|]; [|reflexivity]. cbn [bind]. destruct (if t then _ else _) as [ramp|]; [|reflexivity]. cbn [bind].
  destruct (is_text _ _); [|reflexivity]. destruct (truthy it) as [t2|]; [|reflexivity]. cbn [bind]. destruct (if t2 then _ else _) as [g|]; [|reflexivity]. cbn [bind].
  rewrite (crab_gens_ext _ _ _ _ _ _ _ _ _ S). reflexivity.
Qed.
Lemma assemble_ext h a a' ctrls n : same_used a a' -> assemble make setter named gen h a' ctrls n = assemble make setter named gen h a ctrls n.
Proof.
  intros S. unfold assemble. replace (alg_defaults a') with (alg_defaults a) by (unfold alg_defaults; rewrite ?(su_drift _ _ S), ?(su_initial _ _ S), ?(su_target _ _ S), ?(su_num_tslots _ _ S), ?(su_evo_time _ _ S), ?(su_tau _ _ S), ?(su_amp_lbound _ _ S), ?(su_amp_ubound _ _ S), ?(su_fid_err_targ _ _ S), ?(su_min_grad _ _ S), ?(su_max_iter _ _ S), ?(su_max_wall_time _ _ S), ?(su_alg _ _ S), ?(su_alg_params _ _ S), ?(su_optim_params _ _ S), ?(su_optim_method _ _ S), ?(su_method_params _ _ S), ?(su_dyn_type _ _ S), ?(su_dyn_params _ _ S), ?(su_prop_type _ _ S), ?(su_prop_params _ _ S), ?(su_fid_type _ _ S), ?(su_fid_params _ _ S), ?(su_tslot_params _ _ S), ?(su_init_pulse_type _ _ S), ?(su_init_pulse_params _ _ S), ?(su_pulse_scaling _ _ S), ?(su_pulse_offset _ _ S), ?(su_ramping_pulse_type _ _ S), ?(su_ramping_pulse_params _ _ S), ?(su_gen_stats _ _ S), ?(su_stats _ _ S); reflexivity).
  destruct (alg_defaults a) as [[[m pt] it]|]; [|reflexivity]. cbn [bind].
  replace (build_dyn make setter h a' m pt it) with (build_dyn make setter h a m pt it) by (unfold build_dyn; rewrite ?(su_drift _ _ S), ?(su_initial _ _ S), ?(su_target _ _ S), ?(su_num_tslots _ _ S), ?(su_evo_time _ _ S), ?(su_tau _ _ S), ?(su_amp_lbound _ _ S), ?(su_amp_ubound _ _ S), ?(su_fid_err_targ _ _ S), ?(su_min_grad _ _ S), ?(su_max_iter _ _ S), ?(su_max_wall_time _ _ S), ?(su_alg _ _ S), ?(su_alg_params _ _ S), ?(su_optim_params _ _ S), ?(su_optim_method _ _ S), ?(su_method_params _ _ S), ?(su_dyn_type _ _ S), ?(su_dyn_params _ _ S), ?(su_prop_type _ _ S), ?(su_prop_params _ _ S), ?(su_fid_type _ _ S), ?(su_fid_params _ _ S), ?(su_tslot_params _ _ S), ?(su_init_pulse_type _ _ S), ?(su_init_pulse_params _ _ S), ?(su_pulse_scaling _ _ S), ?(su_pulse_offset _ _ S), ?(su_ramping_pulse_type _ _ S), ?(su_ramping_pulse_params _ _ S), ?(su_gen_stats _ _ S), ?(su_stats _ _ S); reflexivity).
  destruct (build_dyn _ _ _ _ _ _ _) as [[[[[cfg dyn] prop] fid] tslot]|]; [|reflexivity]. cbn [bind].
  replace (build_opt make setter named h a' m cfg dyn) with (build_opt make setter named h a m cfg dyn) by (unfold build_opt; rewrite ?(su_drift _ _ S), ?(su_initial _ _ S), ?(su_target _ _ S), ?(su_num_tslots _ _ S), ?(su_evo_time _ _ S), ?(su_tau _ _ S), ?(su_amp_lbound _ _ S), ?(su_amp_ubound _ _ S), ?(su_fid_err_targ _ _ S), ?(su_min_grad _ _ S), ?(su_max_iter _ _ S), ?(su_max_wall_time _ _ S), ?(su_alg _ _ S), ?(su_alg_params _ _ S), ?(su_optim_params _ _ S), ?(su_optim_method _ _ S), ?(su_method_params _ _ S), ?(su_dyn_type _ _ S), ?(su_dyn_params _ _ S), ?(su_prop_type _ _ S), ?(su_prop_params _ _ S), ?(su_fid_type _ _ S), ?(su_fid_params _ _ S), ?(su_tslot_params _ _ S), ?(su_init_pulse_type _ _ S), ?(su_init_pulse_params _ _ S), ?(su_pulse_scaling _ _ S), ?(su_pulse_offset _ _ S), ?(su_ramping_pulse_type _ _ S), ?(su_ramping_pulse_params _ _ S), ?(su_gen_stats _ _ S), ?(su_stats _ _ S); reflexivity).
  destruct (build_opt _ _ _ _ _ _ _ _) as [[dyn1 opt]|]; [|reflexivity]. cbn [bind].
  replace (configure setter a' ctrls dyn1) with (configure setter a ctrls dyn1) by (unfold configure; rewrite ?(su_drift _ _ S), ?(su_initial _ _ S), ?(su_target _ _ S), ?(su_num_tslots _ _ S), ?(su_evo_time _ _ S), ?(su_tau _ _ S), ?(su_amp_lbound _ _ S), ?(su_amp_ubound _ _ S), ?(su_fid_err_targ _ _ S), ?(su_min_grad _ _ S), ?(su_max_iter _ _ S), ?(su_max_wall_time _ _ S), ?(su_alg _ _ S), ?(su_alg_params _ _ S), ?(su_optim_params _ _ S), ?(su_optim_method _ _ S), ?(su_method_params _ _ S), ?(su_dyn_type _ _ S), ?(su_dyn_params _ _ S), ?(su_prop_type _ _ S), ?(su_prop_params _ _ S), ?(su_fid_type _ _ S), ?(su_fid_params _ _ S), ?(su_tslot_params _ _ S), ?(su_init_pulse_type _ _ S), ?(su_init_pulse_params _ _ S), ?(su_pulse_scaling _ _ S), ?(su_pulse_offset _ _ S), ?(su_ramping_pulse_type _ _ S), ?(su_ramping_pulse_params _ _ S), ?(su_gen_stats _ _ S), ?(su_stats _ _ S); reflexivity).
  destruct (configure _ _ _ _) as [dyn2|]; [|reflexivity]. cbn [bind]. rewrite (pgen_ext _ _ _ _ _ _ S). reflexivity.
Qed.
Lemma assemble_type h a ctrls n : assemble make setter named gen h (no_type a) ctrls n = assemble make setter named gen h a ctrls n.
Proof. apply assemble_ext. constructor; reflexivity. Qed.
Lemma call_type e a h t : call e (a <| a_tslot_type := t |>) h = call e a h.
Proof.
  destruct e; cbn [Build.call].
  - unfold create. change (a_ctrls (a <| a_tslot_type := t |>)) with (a_ctrls a). destruct (check_ctrls (a_ctrls a)) as [[ctrls n]|]; [|auto].
    change (a_drift (a <| a_tslot_type := t |>)) with (a_drift a). change (a_initial (a <| a_tslot_type := t |>)) with (a_initial a).
    change (a_target (a <| a_tslot_type := t |>)) with (a_target a). destruct (check_others _ _ _); [|auto].
    destruct (deprecated_type a h t) as [E1 E2]. destruct (deprecated (a <| a_tslot_type := t |>) h) as [h1 a1], (deprecated a h) as [h2 a2].
    cbn [fst snd] in *. subst h2. apply (f_equal (pair h1)). rewrite <- (assemble_type h1 a1), E2. apply assemble_type.
  - apply optimize_type.
  - apply unitary_type.
  - unfold opt_pulse_crab. change (crab_alg_params (a <| a_tslot_type := t |>) h) with (crab_alg_params a h). destruct (crab_alg_params a h) as [h1 ap].
    change (crab_guess_params (a <| a_tslot_type := t |>) h1) with (crab_guess_params a h1). destruct (crab_guess_params a h1) as [[h2 gp]|]; [|auto].
    rewrite crab_type. apply optimize_type.
  - unfold opt_pulse_crab_unitary. change (crab_alg_params (a <| a_tslot_type := t |>) h) with (crab_alg_params a h). destruct (crab_alg_params a h) as [h1 ap].
    change (crab_guess_params (a <| a_tslot_type := t |>) h1) with (crab_guess_params a h1). destruct (crab_guess_params a h1) as [[h2 gp]|]; [|auto].
    change (a_phase_option (a <| a_tslot_type := t |>)) with (a_phase_option a). rewrite crab_type'. apply unitary_type.
Qed.
Lemma call_tslot_params e a h t : e <> Create -> call e (a <| a_tslot_params := t |>) h = call e a h.
Proof.
  intros N. destruct e; cbn [Build.call].
  - congruence.
  - apply optimize_params.
  - apply unitary_params.
  - unfold opt_pulse_crab. change (crab_alg_params (a <| a_tslot_params := t |>) h) with (crab_alg_params a h). destruct (crab_alg_params a h) as [h1 ap].
    change (crab_guess_params (a <| a_tslot_params := t |>) h1) with (crab_guess_params a h1). destruct (crab_guess_params a h1) as [[h2 gp]|]; [|auto].
    rewrite crab_params. apply optimize_params.
  - unfold opt_pulse_crab_unitary. change (crab_alg_params (a <| a_tslot_params := t |>) h) with (crab_alg_params a h). destruct (crab_alg_params a h) as [h1 ap].
    change (crab_guess_params (a <| a_tslot_params := t |>) h1) with (crab_guess_params a h1). destruct (crab_guess_params a h1) as [[h2 gp]|]; [|auto].
    change (a_phase_option (a <| a_tslot_params := t |>)) with (a_phase_option a). rewrite crab_params'. apply unitary_params.
Qed.

(** ** optimize_pulse and create_pulse_optimizer *)
Lemma assemble_forwarded h a ctrls n : a_tslot_params a = NoDict None -> is_text (a_amp_update_mode a) "DYNAMIC" = false ->
  assemble make setter named gen h (forwarded a) ctrls n = assemble make setter named gen h a ctrls n.
Proof.
  intros T D. apply assemble_ext. constructor; try reflexivity.
  - symmetry. exact T.
  - unfold stats_of. rewrite D. reflexivity.
Qed.
Lemma deprecated_fields a h : let a1 := snd (deprecated a h) in
  a_ctrls a1 = a_ctrls a /\ a_drift a1 = a_drift a /\ a_initial a1 = a_initial a /\ a_target a1 = a_target a /\
  a_tslot_params a1 = a_tslot_params a /\ a_amp_update_mode a1 = a_amp_update_mode a /\ a_alg a1 = a_alg a.
Proof. rewrite deprecated_pure, old_method_pure. repeat split. Qed.
Lemma pgens_of_alg h a ctrls n b : assemble make setter named gen h a ctrls n = Ok b ->
  if is_text (upper_safe (a_alg a)) "CRAB" then exists c l, b_pgen b = Many (c :: l) else exists p, b_pgen b = One p.
Proof.
  intros H. apply assemble_inv in H. destruct H as (m & pt & it & d0 & d1 & _ & _ & _ & _ & P). apply build_pgen_inv in P.
  destruct (is_text _ _).
  - destruct P as (l & action & -> & N & _). destruct l; [contradiction|eauto].
  - destruct P as (p & _ & _ & -> & _). eauto.
Qed.
Lemma optimize_as_create a h h' b : call Create a h = (h', Ok b) -> a_tslot_params a = NoDict None -> is_text (a_amp_update_mode a) "DYNAMIC" = false ->
  call Optimize a h = (h', initial_pulses (a_alg a) b).
Proof.
  cbn [Build.call]. unfold Build.optimize_pulse, create. intros E T D. destruct (deprecated_fields a h) as (F1 & F2 & F3 & F4 & F5 & F6 & F7).
  destruct (check_ctrls (a_ctrls a)) as [[ctrls n]|] eqn:C; [|discriminate]. destruct (check_others (a_drift a) (a_initial a) (a_target a)) eqn:O; [|discriminate].
  destruct (deprecated a h) as [h1 a1]. cbn [snd] in *. injection E as <- E.
  change (a_ctrls (forwarded a1)) with (a_ctrls a1). change (a_drift (forwarded a1)) with (a_drift a1).
  change (a_initial (forwarded a1)) with (a_initial a1). change (a_target (forwarded a1)) with (a_target a1).
  rewrite F1, F2, F3, F4, C, O, forwarded_nothing, assemble_forwarded by congruence. rewrite E. cbn [bind]. now rewrite F7.
Qed.
End Build.
