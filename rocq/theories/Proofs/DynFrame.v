(** What the computations leave alone, for any state whatever, and the link
    between the "current" flags of the fidelity and of the evolution. *)
From Coq Require Import Reals.
From Coquelicot Require Import Complex.
From RecordUpdate Require Import RecordUpdate.
From Verif.Model Require Import Base Dyn.
From Verif.Lib Require Import Lists.
From Verif.Proofs Require Import DynRun.
Local Open Scope nat_scope.
Set Bullet Behavior "Strict Subproofs".

Ltac inv_ok := repeat match goal with
  | H : bind ?m ?f = Ok _ |- _ => apply bind_inv in H; destruct H as (? & ? & H)
  | H : Ok _ = Ok _ |- _ => injection H; intros; subst; clear H
  | H : Raise _ = Ok _ |- _ => discriminate H
  | H : match ?x with _ => _ end = Ok _ |- _ => destruct x eqn:?
  | H : (_, _) = (_, _) |- _ => injection H; intros; subst; clear H
  end.

Lemma for_each_inv {S} (P : S -> Prop) (body : nat -> S -> Res S) l s s' :
  for_each l body s = Ok s' -> P s -> (forall k s s', P s -> body k s = Ok s' -> P s') -> P s'.
Proof.
  intros H HP Hs; revert s H HP; induction l; intros s H HP; cbn in H; inv_ok; auto. eauto.
Qed.

Section Frame.
Context {A : Alg}.
Implicit Types d : dyn A.

Definition keeps d d' : Prop :=
  d_init d' = d_init d /\ d_evo_cur d' = d_evo_cur d /\ d_fidst d' = d_fidst d /\ d_amps d' = d_amps d.

Lemma keeps_refl d : keeps d d. Proof. unfold keeps; splits; auto. Qed.
Lemma keeps_trans d1 d2 d3 : keeps d1 d2 -> keeps d2 d3 -> keeps d1 d3.
Proof. unfold keeps; intros (? & ? & ? & ?) (? & ? & ? & ?); splits; congruence. Qed.
Hint Resolve keeps_refl : core.
Ltac kp := try solve [unfold keeps; cbn; splits; auto].

Lemma combine_keeps k d d' : combine_dyn_gen k d = Ok d' -> keeps d d'.
Proof. unfold combine_dyn_gen; intros H; inv_ok; kp. Qed.
Lemma spectral_keeps k d d' : spectral_decomp k d = Ok d' -> keeps d d'.
Proof. unfold spectral_decomp; intros H; inv_ok; kp. Qed.
Lemma ensure_keeps k d d' : ensure_decomp_curr k d = Ok d' -> keeps d d'.
Proof. unfold ensure_decomp_curr; intros H; inv_ok; kp. eapply spectral_keeps; eauto. Qed.
Lemma prop_keeps k d d' p : compute_propagator k d = Ok (d', p) -> keeps d d'.
Proof. unfold compute_propagator; intros H; inv_ok; kp. eapply ensure_keeps; eauto. Qed.
Lemma pgrad_keeps k j d d' p : compute_prop_grad k j d = Ok (d', p) -> keeps d d'.
Proof.
  unfold compute_prop_grad; intros H; inv_ok; kp.
  eapply keeps_trans; [eapply ensure_keeps; eauto|eapply prop_keeps; eauto].
Qed.
Lemma set_pg_keeps d k j g d' : set_pg d k j g = Ok d' -> keeps d d'.
Proof. unfold set_pg; intros H; inv_ok; kp. Qed.
Lemma step_dyn_gen_keeps k d d' : step_dyn_gen k d = Ok d' -> keeps d d'.
Proof.
  unfold step_dyn_gen; intros H; inv_ok; match goal with H : combine_dyn_gen _ _ = _ |- _ => apply combine_keeps in H end;
  auto; eapply keeps_trans; eauto; kp.
Qed.
Lemma step_prop_keeps nc k d d' : step_prop nc k d = Ok d' -> keeps d d'.
Proof.
  unfold step_prop; intros H; inv_ok.
  - eapply (for_each_inv (keeps d)); eauto. cbv beta. intros j s s' K E.
    apply bind_inv in E; destruct E as ((d1 & p & g) & E1 & E).
    apply bind_inv in E; destruct E as (d2 & E2 & E).
    eapply keeps_trans; [exact K|]; eapply keeps_trans; [eapply pgrad_keeps; eauto|].
    eapply keeps_trans; [|eapply set_pg_keeps; eauto]; inv_ok; kp.
  - eapply keeps_trans; [eapply prop_keeps; eauto|]; kp.
Qed.
Lemma num_ctrls_keeps d d' n : get_num_ctrls d = Ok (d', n) -> keeps d d'.
Proof. unfold get_num_ctrls; intros H. destruct (s_class (d_set d)), (d_mapped d); inv_ok; kp. Qed.

Lemma recompute_keeps d d' : recompute_evolution d = Ok d' -> keeps d d'.
Proof.
  unfold recompute_evolution; intros H.
  apply bind_inv in H; destruct H as ((d1 & nc) & E1 & H). apply num_ctrls_keeps in E1.
  apply bind_inv in H; destruct H as (d2 & E2 & H).
  apply bind_inv in H; destruct H as (d3 & E3 & H).
  apply bind_inv in H; destruct H as (d4 & E4 & H).
  apply bind_inv in H; destruct H as (d5 & E5 & H).
  eapply keeps_trans; [exact E1|].
  apply (for_each_inv (keeps d1)) in E2.
  2: { cbn. destruct (d_stats d1); kp. }
  2: { intros k s s' K E. eapply keeps_trans; [exact K|]. eapply step_dyn_gen_keeps; eauto. }
  eapply keeps_trans; [exact E2|].
  apply (for_each_inv (keeps d2)) in E3; auto.
  2: { intros k s s' K E. eapply keeps_trans; [exact K|]. eapply step_prop_keeps; eauto. }
  eapply keeps_trans; [exact E3|].
  apply (for_each_inv (keeps d3)) in E4; auto.
  2: { intros k s s' K E. eapply keeps_trans; [exact K|]. unfold step_fwd in E; inv_ok; kp. }
  eapply keeps_trans; [exact E4|].
  eapply keeps_trans with (d2 := d5).
  - clear H. inv_ok; auto. eapply (for_each_inv (keeps d4)); eauto; kp.
    intros k s s' K E. eapply keeps_trans; [exact K|]. unfold step_onwd in E; inv_ok; kp.
  - clear E5. destruct (uses_onto _); [|injection H as <-; auto]. eapply (for_each_inv (keeps d5)); eauto; kp.
    intros k s s' K E. eapply keeps_trans; [exact K|]. unfold step_onto in E; inv_ok; kp.
Qed.

Lemma evo_keeps d d' b : compute_evolution d = Ok (d', b) ->
  d_init d' = d_init d /\ d_evo_cur d' = true /\ d_fidst d' = d_fidst d /\ d_amps d' = d_amps d.
Proof.
  unfold compute_evolution; intros H; inv_ok; splits; auto.
  all: match goal with H : recompute_evolution _ = _ |- _ => apply recompute_keeps in H; unfold keeps in H end; cbn; tauto.
Qed.

(** A cached fidelity goes with a current evolution. *)
Definition linked d : Prop :=
  d_init d = true /\
  (f_fid_cur (d_fidst d) = true -> d_evo_cur d = true) /\
  (f_pre_cur (d_fidst d) = true -> d_evo_cur d = true).

Lemma evo_linked d d' b : linked d -> compute_evolution d = Ok (d', b) -> linked d' /\ d_evo_cur d' = true.
Proof. intros L E; apply evo_keeps in E; destruct E as (E1 & E2 & E3 & E4), L; unfold linked; rewrite E1, E2; auto. Qed.

Lemma prenorm_linked d d' f : linked d -> get_fidelity_prenorm d = Ok (d', f) -> linked d' /\ d_evo_cur d' = true.
Proof.
  unfold get_fidelity_prenorm; intros L H; inv_ok.
  - split; auto. destruct L as (_ & L1 & L2); auto.
  - match goal with H : compute_evolution _ = _ |- _ => apply (evo_linked _ _ _ L) in H; destruct H as [[I [_ _]] H] end.
    unfold bump_fid; cbn. destruct (d_stats _); cbn; unfold linked; cbn; auto.
Qed.
Lemma fidelity_linked d d' f : linked d -> get_fidelity d = Ok (d', f) -> linked d' /\ d_evo_cur d' = true.
Proof.
  unfold get_fidelity; intros L H; inv_ok.
  - split; auto. destruct L as (_ & L1 & L2); auto.
  - match goal with H : get_fidelity_prenorm _ = _ |- _ => apply (prenorm_linked _ _ _ L) in H; destruct H as [[I [_ _]] H] end.
    unfold linked; cbn; auto.
Qed.
Lemma fid_err_linked d d' f : linked d -> get_fid_err d = Ok (d', f) -> linked d' /\ d_evo_cur d' = true.
Proof.
  unfold get_fid_err; intros L H; inv_ok.
  - eapply fidelity_linked; eauto.
  - split; auto. destruct L as (_ & L1 & L2); auto.
  - match goal with H : compute_evolution _ = _ |- _ => apply (evo_linked _ _ _ L) in H; destruct H as [[I [_ _]] H] end.
    unfold bump_fid; cbn. destruct (d_stats _); cbn; unfold linked; cbn; auto.
Qed.

Lemma get_pg_keeps k j d d' g : get_prop_grad k j d = Ok (d', g) -> keeps d d'.
Proof. unfold get_prop_grad; intros H; inv_ok; auto. eapply pgrad_keeps; eauto. Qed.

Lemma fill_keeps {X} n nc (f : nat -> nat -> dyn A -> Res (dyn A * X)) z d d' g :
  (forall k j d d' x, f k j d = Ok (d', x) -> keeps d d') ->
  fill_grad n nc f z d = Ok (d', g) -> keeps d d'.
Proof.
  intros Hf H. unfold fill_grad in H.
  apply (for_each_inv (fun s => keeps d (fst s))) in H; auto.
  intros j s s' K E. apply (for_each_inv (fun s => keeps d (fst s))) in E; auto.
  intros k [d1 g1] s2 K1 E1. inv_ok. cbn in *. eapply keeps_trans; [exact K1|]. eapply Hf; eauto.
Qed.

Lemma keeps_linked d d' : keeps d d' -> linked d -> linked d'.
Proof. unfold keeps, linked; intros (-> & -> & -> & _) L; auto. Qed.

Lemma gradient_linked d d' g : linked d -> get_fid_err_gradient d = Ok (d', g) -> linked d'.
Proof.
  unfold get_fid_err_gradient; intros L H.
  destruct (f_grad_cur (d_fidst d)); [inv_ok; auto|].
  apply bind_inv in H; destruct H as ((d1 & g1) & E & H).
  assert (L1 : linked d1).
  { destruct (s_fid (d_set d)).
    - unfold compute_fid_grad in E; inv_ok.
      match goal with H : get_num_ctrls _ = _ |- _ => apply num_ctrls_keeps in H; apply (keeps_linked _ _ H) in L end.
      match goal with H : compute_evolution _ = _ |- _ => apply (evo_linked _ _ _ L) in H; destruct H as [L2 _] end.
      match goal with H : fill_grad _ _ _ _ _ = _ |- _ => apply fill_keeps in H; [apply (keeps_linked _ _ H) in L2|] end.
      2: { intros ? ? ? ? ? EE; clear - EE; rename EE into E; unfold unit_grad_entry in E; inv_ok; eapply get_pg_keeps; eauto. }
      match goal with H : get_fidelity _ = _ |- _ => apply (fidelity_linked _ _ _ L2) in H; destruct H as [L3 _] end.
      match goal with H : get_fidelity_prenorm _ = _ |- _ => apply (prenorm_linked _ _ _ L3) in H; tauto end.
    - unfold compute_fid_err_grad in E; inv_ok.
      match goal with H : get_num_ctrls _ = _ |- _ => apply num_ctrls_keeps in H; apply (keeps_linked _ _ H) in L end.
      match goal with H : compute_evolution _ = _ |- _ => apply (evo_linked _ _ _ L) in H; destruct H as [L2 _] end.
      match goal with H : fill_grad _ _ _ _ _ = _ |- _ => apply fill_keeps in H; [apply (keeps_linked _ _ H) in L2; auto|] end.
      intros ? ? ? ? ? EE; clear - EE; rename EE into E; unfold trace_grad_entry in E; inv_ok; eapply get_pg_keeps; eauto. }
  injection H as <- _. unfold linked, bump_grad in *; cbn. destruct (d_stats d1); cbn; auto.
Qed.

Lemma update_linked a d d' : linked d -> update_ctrl_amps a d = Ok d' -> linked d'.
Proof.
  unfold update_ctrl_amps, compare_amps; intros L H.
  apply bind_inv in H; destruct H as ((d1 & b) & H & E). injection E as <-.
  apply bind_inv in H; destruct H as (((ch & na) & ns) & _ & H).
  destruct ch; injection H as <- _.
  - unfold linked in *; destruct (d_stats d); cbn; splits; try tauto; discriminate.
  - unfold linked in *; destruct (d_stats d); cbn; splits; tauto.
Qed.

Lemma fwd_linked d : linked d -> linked (fst (get_fwd_evo d)).
Proof. unfold linked, get_fwd_evo. destruct (d_fwd_q d); cbn; auto. Qed.

Lemma init_evo_amps d d' : init_evo d = Ok d' -> d_amps d' = d_amps d.
Proof.
  unfold init_evo; intros H.
  apply bind_inv in H; destruct H as (d0 & E0 & H).
  apply bind_inv in H; destruct H as ((d1 & nc) & E1 & H).
  assert (Q0 : d_amps d0 = d_amps d) by (unfold refresh_drift_attribs in E0; inv_ok; auto).
  apply num_ctrls_keeps in E1. destruct E1 as (_ & _ & _ & E1).
  assert (Q1 : d_amps (init_phase d0) = d_amps d0) by (unfold init_phase; destruct (s_phase (d_set d0)); auto).
  injection H as <-.
  destruct (s_cache_ph (d_set d1)), (grad_exact (s_prop (d_set d1)) && s_cache_pg (d_set d1)),
    (uses_onwd (s_fid (d_set d1))), (uses_onto (s_fid (d_set d1))), (s_prop (d_set d1)), (s_cache_adj (d_set d1)); cbn; congruence.
Qed.

Lemma initialize_linked a d d' : initialize_controls a d = Ok d' -> linked d'.
Proof.
  unfold initialize_controls; intros H.
  apply bind_inv in H; destruct H as (d1 & E & H). apply init_evo_amps in E; cbn in E.
  unfold update_ctrl_amps, compare_amps in H.
  assert (Q : d_amps (fid_init_comp d1) = d_amps d1)
    by (unfold fid_init_comp; destruct (s_fid (d_set d1)); auto; destruct (s_scale (d_set d1)); auto).
  cbn in H. rewrite Q, E in H. cbn in H. injection H as <-.
  unfold linked. destruct (d_stats (fid_init_comp d1)); cbn; splits; auto; discriminate.
Qed.

Lemma step_linked o d d' : linked d -> step o d = Ok d' -> linked d'.
Proof.
  intros L H; destruct o; cbn [step] in H; unfold lift in H; inv_ok.
  all: try solve [eapply update_linked; eauto | eapply evo_linked; eauto | eapply fid_err_linked; eauto
                 |eapply fidelity_linked; eauto | eapply gradient_linked; eauto | apply fwd_linked; auto].
  all: unfold linked, get_dyn_gen, get_prop, get_prop_grads, get_onwd_evo, get_onto_evo in *.
  all: repeat match goal with |- context [match ?x with _ => _ end] => destruct x end; cbn; auto.
Qed.

Lemma run_linked ops : forall d d', linked d -> run ops d = Ok d' -> linked d'.
Proof.
  induction ops; intros d d' L H; cbn in H; inv_ok; auto.
  eapply IHops; [|eauto]. eapply step_linked; eauto.
Qed.

(** *** The stored gradient norm only changes with a gradient *)
Definition gnorm d := f_gradnorm (d_fidst d).

Lemma prenorm_gnorm d d' f : get_fidelity_prenorm d = Ok (d', f) -> gnorm d' = gnorm d.
Proof.
  unfold get_fidelity_prenorm, gnorm; intros H; inv_ok; auto.
  match goal with H : compute_evolution _ = _ |- _ => apply evo_keeps in H; destruct H as (_ & _ & H & _) end.
  unfold bump_fid; cbn. destruct (d_stats _); cbn; congruence.
Qed.
Lemma fidelity_gnorm d d' f : get_fidelity d = Ok (d', f) -> gnorm d' = gnorm d.
Proof.
  unfold get_fidelity; intros H; inv_ok; auto.
  match goal with H : get_fidelity_prenorm _ = _ |- _ => apply prenorm_gnorm in H end. auto.
Qed.
Lemma fid_err_gnorm d d' f : get_fid_err d = Ok (d', f) -> gnorm d' = gnorm d.
Proof.
  unfold get_fid_err; intros H; inv_ok; auto.
  - eapply fidelity_gnorm; eauto.
  - match goal with H : compute_evolution _ = _ |- _ => apply evo_keeps in H; destruct H as (_ & _ & H & _) end.
    unfold bump_fid, gnorm; cbn. destruct (d_stats _); cbn; congruence.
Qed.
Lemma update_gnorm a d d' : update_ctrl_amps a d = Ok d' -> gnorm d' = gnorm d.
Proof.
  unfold update_ctrl_amps, compare_amps, gnorm; intros H.
  apply bind_inv in H; destruct H as ((d1 & b) & H & E). injection E as <-.
  apply bind_inv in H; destruct H as (((ch & na) & ns) & _ & H).
  destruct ch; injection H as <- _; destruct (d_stats d); auto.
Qed.
Lemma fwd_gnorm d : gnorm (fst (get_fwd_evo d)) = gnorm d.
Proof. unfold gnorm, get_fwd_evo. destruct (d_fwd_q d); cbn; auto. Qed.
End Frame.
