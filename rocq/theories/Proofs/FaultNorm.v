(** Nothing but [grad_norm] itself depends on the stored gradient norm. *)
From Coq Require Import Reals.
From Coquelicot Require Import Complex.
From RecordUpdate Require Import RecordUpdate.
From Verif.Model Require Import Base Dyn.
From Verif.Lib Require Import Lists.
Local Open Scope nat_scope.
Set Bullet Behavior "Strict Subproofs".

Section Norm.
Context {A : Alg} (x : R).
Notation Op := (Op A).
Notation dyn := (dyn A).

Definition sg (d : dyn) : dyn := d <| d_fidst; f_gradnorm := x |>.

Definition cm (f : dyn -> Res dyn) : Prop := forall d, f (sg d) = (d' <- f d;; Ok (sg d')).
Definition cmv {X} (f : dyn -> Res (dyn * X)) : Prop := forall d, f (sg d) = ('(d', v) <- f d;; Ok (sg d', v)).

Ltac crush1 :=
  match goal with
  | |- context [bind ?m _] =>
      lazymatch m with bind _ _ => fail | Ok _ => fail | Raise _ => fail
      | match ?x with _ => _ end => destruct x eqn:?
      | _ => destruct m eqn:? end
  | |- context [match ?x with _ => _ end] => destruct x eqn:?
  end.
Ltac tidy := cbn -[for_each]; try reflexivity.
Ltac crush := tidy; repeat (crush1; tidy).
Ltac open d := destruct d; unfold sg.

Lemma cm_for l f : (forall k, cm (f k)) -> cm (for_each l f).
Proof.
  intros H. induction l as [|k l IH]; intros d; cbn [for_each]; auto.
  rewrite (H k d). destruct (f k d) as [d1|]; cbn [bind]; auto.
Qed.

Lemma cm_combine k : cm (combine_dyn_gen k).
Proof. intros d. unfold combine_dyn_gen. open d. crush. Qed.
Lemma cm_spectral k : cm (spectral_decomp k).
Proof.
  intros d. unfold spectral_decomp. change (d_set (sg d)) with (d_set d). change (d_dg (sg d)) with (d_dg d).
  destruct (s_class (d_set d)); auto. destruct (getf (d_dg d) k) as [H|]; cbn [bind]; auto.
  destruct (oeigh A H) as [lam V]. open d. unfold tau_at. crush.
Qed.
Lemma cm_ensure k : cm (ensure_decomp_curr k).
Proof.
  intros d. unfold ensure_decomp_curr. change (d_dcur (sg d)) with (d_dcur d). rewrite cm_spectral.
  destruct (d_dcur d); auto. destruct (get l k) as [[]|]; auto.
Qed.
Lemma phased_sg k d : get_phased_dyn_gen k (sg d) = get_phased_dyn_gen k d. Proof. reflexivity. Qed.
Lemma phasedc_sg k j d : get_phased_ctrl_dyn_gen k j (sg d) = get_phased_ctrl_dyn_gen k j d. Proof. reflexivity. Qed.
Lemma eadj_sg k d : get_eadj k (sg d) = get_eadj k d. Proof. reflexivity. Qed.
Lemma tau_sg k d : tau_at k (sg d) = tau_at k d. Proof. reflexivity. Qed.
Lemma cmv_propagator k : cmv (compute_propagator k).
Proof.
  intros d. unfold compute_propagator. change (s_prop (d_set (sg d))) with (s_prop (d_set d)).
  rewrite cm_ensure. rewrite phased_sg, tau_sg.
  destruct (s_prop (d_set d)); [crush| |crush..].
  destruct (ensure_decomp_curr k d) as [d1|]; cbn [bind]; auto. rewrite eadj_sg.
  change (d_evec (sg d1)) with (d_evec d1). change (d_peig (sg d1)) with (d_peig d1). crush.
Qed.
Lemma cmv_prop_grad k j : cmv (compute_prop_grad k j).
Proof.
  intros d. unfold compute_prop_grad. change (s_prop (d_set (sg d))) with (s_prop (d_set d)).
  rewrite cm_ensure. rewrite phased_sg, tau_sg, phasedc_sg.
  destruct (s_prop (d_set d)); [reflexivity| |crush..].
  destruct (ensure_decomp_curr k d) as [d1|]; cbn [bind]; auto. rewrite cmv_propagator.
  destruct (compute_propagator k d1) as [[d2 p]|]; cbn [bind]; auto.
  rewrite eadj_sg, tau_sg, phasedc_sg.
  change (d_evec (sg d2)) with (d_evec d2). change (d_fac (sg d2)) with (d_fac d2). crush.
Qed.
Lemma cm_set_pg d k j g : set_pg (sg d) k j g = (d' <- set_pg d k j g;; Ok (sg d')).
Proof. unfold set_pg. open d. crush. Qed.
Lemma cm_step_gen k : cm (step_dyn_gen k).
Proof.
  intros d. unfold step_dyn_gen. rewrite cm_combine. destruct (combine_dyn_gen k d) as [d1|]; cbn [bind]; auto.
  open d1. crush.
Qed.
Lemma cm_step_prop nc k : cm (step_prop nc k).
Proof.
  intros d. unfold step_prop.
  change (s_prop (d_set (sg d))) with (s_prop (d_set d)). change (s_cache_pg (d_set (sg d))) with (s_cache_pg (d_set d)).
  destruct (grad_exact (s_prop (d_set d)) && s_cache_pg (d_set d)).
  - apply cm_for. intros j d1. rewrite cmv_prop_grad. destruct (compute_prop_grad k j d1) as [[d2 [p g]]|]; cbn [bind]; auto.
    change (d_prop (sg d2)) with (d_prop d2). destruct (j =? 0); [|apply cm_set_pg].
    destruct (set (d_prop d2) k (Some p)); cbn [bind]; auto. change (sg d2 <| d_prop := a |>) with (sg (d2 <| d_prop := a |>)). apply cm_set_pg.
  - rewrite cmv_propagator. destruct (compute_propagator k d) as [[d2 p]|]; cbn [bind]; auto.
    change (d_prop (sg d2)) with (d_prop d2). crush.
Qed.
Lemma cm_fwd k : cm (step_fwd k). Proof. intros d. unfold step_fwd. open d. crush. Qed.
Lemma cm_onwd k : cm (step_onwd k). Proof. intros d. unfold step_onwd. open d. crush. Qed.
Lemma cm_onto k : cm (step_onto k). Proof. intros d. unfold step_onto. open d. crush. Qed.
Lemma cmv_num : cmv get_num_ctrls.
Proof.
  intros d. unfold get_num_ctrls. change (d_set (sg d)) with (d_set d). change (d_mapped (sg d)) with (d_mapped d).
  set (e := match s_class (d_set d) with GenMat => sg d | Unitary => _ end).
  set (e' := match s_class (d_set d) with GenMat => d | Unitary => _ end).
  assert (E : e = sg e').
  { subst e e'. destruct (s_class (d_set d)); auto. destruct (d_mapped d); reflexivity. }
  rewrite E. clearbody e'. clear e E. change (d_num_ctrls (sg e')) with (d_num_ctrls e').
  change (d_set (sg e')) with (d_set e'). destruct (d_num_ctrls e'); auto.
  destruct (s_ctrls (d_set e')) as [[|rows]|]; auto. destruct (get rows 0); auto.
Qed.
Lemma cm_recompute : cm recompute_evolution.
Proof.
  intros d. unfold recompute_evolution. change (n_ts (sg d)) with (n_ts d). rewrite cmv_num.
  destruct (get_num_ctrls d) as [[d1 nc]|]; cbn [bind]; auto.
  set (d2 := match d_stats _ with Some _ => _ | None => _ end).
  set (d2' := match d_stats _ with Some _ => _ | None => _ end).
  assert (E : d2 = sg d2').
  { subst d2 d2'. cbn -[sg]. change (d_stats (sg d1)) with (d_stats d1). destruct (d_stats d1); reflexivity. }
  rewrite E. clearbody d2'. clear d2 E.
  rewrite (cm_for _ _ cm_step_gen d2'). destruct (for_each (range (n_ts d)) step_dyn_gen d2') as [d3|]; cbn [bind]; auto.
  rewrite (cm_for _ _ (cm_step_prop nc) d3). destruct (for_each (range (n_ts d)) (step_prop nc) d3) as [d4|]; cbn [bind]; auto.
  rewrite (cm_for _ _ cm_fwd d4). destruct (for_each (range (n_ts d)) step_fwd d4) as [d5|]; cbn [bind]; auto.
  change (s_fid (d_set (sg d5))) with (s_fid (d_set d5)). change (d_prop (sg d5)) with (d_prop d5).
  change (d_onwd (sg d5)) with (d_onwd d5).
  destruct (uses_onwd (s_fid (d_set d5))); cbn [bind].
  - destruct (get (d_prop d5) (n_ts d - 1)) as [p|]; cbn [bind]; auto.
    destruct (some_or TypeError (d_onwd d5)) as [ow|]; cbn [bind]; auto.
    destruct (set ow (n_ts d - 1) p) as [l|]; cbn [bind]; auto.
    change (sg d5 <| d_onwd := Some l |>) with (sg (d5 <| d_onwd := Some l |>)).
    rewrite (cm_for _ _ cm_onwd). destruct (for_each (range_down (n_ts d - 1)) step_onwd (d5 <| d_onwd := Some l |>)) as [d6|]; cbn [bind]; auto.
    change (s_fid (d_set (sg d6))) with (s_fid (d_set d6)).
    destruct (uses_onto (s_fid (d_set d6))); auto. apply (cm_for _ _ cm_onto).
  - change (s_fid (d_set (sg d5))) with (s_fid (d_set d5)).
    destruct (uses_onto (s_fid (d_set d5))); auto. apply (cm_for _ _ cm_onto).
Qed.
Lemma cmv_evo : cmv compute_evolution.
Proof.
  intros d. unfold compute_evolution. change (d_evo_cur (sg d)) with (d_evo_cur d). destruct (d_evo_cur d); auto.
  rewrite cm_recompute. destruct (recompute_evolution d); auto.
Qed.
Lemma cmv_get_pg k j : cmv (get_prop_grad k j).
Proof.
  intros d. unfold get_prop_grad. change (s_cache_pg (d_set (sg d))) with (s_cache_pg (d_set d)).
  change (d_pg (sg d)) with (d_pg d). rewrite cmv_prop_grad.
  destruct (s_cache_pg (d_set d)); [crush|]. destruct (compute_prop_grad k j d) as [[d1 [p g]]|]; auto.
Qed.
Lemma bump_sg d : bump_fid (sg d) = sg (bump_fid d).
Proof. unfold bump_fid. change (d_stats (sg d)) with (d_stats d). destruct (d_stats d); reflexivity. Qed.
Lemma cmv_prenorm : cmv get_fidelity_prenorm.
Proof.
  intros d. unfold get_fidelity_prenorm. change (f_pre_cur (d_fidst (sg d))) with (f_pre_cur (d_fidst d)).
  change (f_prenorm (d_fidst (sg d))) with (f_prenorm (d_fidst d)). change (n_ts (sg d)) with (n_ts d). rewrite cmv_evo.
  destruct (f_pre_cur (d_fidst d)); [destruct (some_or TypeError (f_prenorm (d_fidst d))); auto|].
  destruct (compute_evolution d) as [[d1 b]|]; cbn [bind]; auto.
  change (d_onto (sg d1)) with (d_onto d1). change (d_fwd (sg d1)) with (d_fwd d1).
  destruct (some_or TypeError (d_onto d1)) as [ot|]; cbn [bind]; auto.
  destruct (getf ot (n_ts d)) as [y|]; cbn [bind]; auto.
  destruct (getf (d_fwd d1) (n_ts d)) as [z|]; cbn [bind]; auto.
  rewrite <- bump_sg. reflexivity.
Qed.
Lemma cmv_fidelity : cmv get_fidelity.
Proof.
  intros d. unfold get_fidelity. change (s_fid (d_set (sg d))) with (s_fid (d_set d)).
  change (f_fid_cur (d_fidst (sg d))) with (f_fid_cur (d_fidst d)).
  change (f_fidelity (d_fidst (sg d))) with (f_fidelity (d_fidst d)). rewrite cmv_prenorm.
  destruct (s_fid (d_set d)); auto.
  destruct (f_fid_cur (d_fidst d)); [destruct (some_or TypeError (f_fidelity (d_fidst d))); auto|].
  destruct (get_fidelity_prenorm d) as [[d1 f]|]; cbn [bind]; auto.
Qed.
Lemma cmv_fid_err : cmv get_fid_err.
Proof.
  intros d. unfold get_fid_err. change (s_fid (d_set (sg d))) with (s_fid (d_set d)).
  change (f_fid_cur (d_fidst (sg d))) with (f_fid_cur (d_fidst d)).
  change (f_fid_err (d_fidst (sg d))) with (f_fid_err (d_fidst d)). rewrite cmv_fidelity, cmv_evo.
  destruct (s_fid (d_set d)).
  - destruct (get_fidelity d) as [[d1 f]|]; cbn [bind]; auto.
  - destruct (f_fid_cur (d_fidst d)); [destruct (some_or TypeError (f_fid_err (d_fidst d))); auto|].
    destruct (compute_evolution d) as [[d1 b]|]; cbn [bind]; auto.
    change (n_ts (sg d1)) with (n_ts d1). change (d_fwd (sg d1)) with (d_fwd d1).
    change (d_target (sg d1)) with (d_target d1). change (s_scale (d_set (sg d1))) with (s_scale (d_set d1)).
    destruct (getf (d_fwd d1) (n_ts d1)) as [y|]; cbn [bind]; auto.
    destruct (some_or TypeError (d_target d1)) as [tg|]; cbn [bind]; auto.
    destruct (some_or TypeError (s_scale (d_set d1))) as [sc|]; cbn [bind]; auto.
    cbv zeta. change (sg d1 <| d_fidst; f_fid_err := Some (trace_err sc (osub A tg y)) |>) with
      (sg (d1 <| d_fidst; f_fid_err := Some (trace_err sc (osub A tg y)) |>)). rewrite bump_sg. reflexivity.
Qed.
Lemma cmv_fill {X} n nc (f : nat -> nat -> dyn -> Res (dyn * X)) z : (forall k j, cmv (f k j)) -> cmv (fill_grad n nc f z).
Proof.
  intros H. intros d. unfold fill_grad. set (g0 := repeat (repeat z nc) n). clearbody g0.
  generalize (range nc). intros l. revert d g0. induction l as [|j l IH]; intros d g0; cbn [for_each]; auto.
  match goal with |- bind (for_each _ ?b _) _ = _ => set (body := b) end.
  assert (E : forall l d g, for_each l body (sg d, g) = ('(d', v) <- for_each l body (d, g);; Ok (sg d', v))).
  { clear l IH d g0. induction l as [|k l IH]; intros d g; cbn [for_each]; auto.
    unfold body at 1 3. rewrite (H k j d). destruct (f k j d) as [[d1 v]|]; cbn [bind]; auto.
    destruct (get g k) as [row|]; cbn [bind]; auto. destruct (set row j v) as [row'|]; cbn [bind]; auto.
    destruct (set g k row') as [g'|]; cbn [bind]; auto. }
  rewrite E. destruct (for_each (range n) body (d, g0)) as [[d1 g1]|]; cbn [bind]; auto.
Qed.
Lemma cmv_unit k j : cmv (unit_grad_entry k j).
Proof.
  intros d. unfold unit_grad_entry. change (d_fwd (sg d)) with (d_fwd d). change (d_onto (sg d)) with (d_onto d).
  rewrite cmv_get_pg. destruct (getf (d_fwd d) k); cbn [bind]; auto.
  destruct (some_or TypeError (d_onto d)) as [ot|]; cbn [bind]; auto.
  destruct (getf ot (k + 1)); cbn [bind]; auto. destruct (get_prop_grad k j d) as [[]|]; auto.
Qed.
Lemma cmv_trace n k j : cmv (trace_grad_entry n k j).
Proof.
  intros d. unfold trace_grad_entry. change (d_fwd (sg d)) with (d_fwd d).
  change (d_target (sg d)) with (d_target d). change (s_scale (d_set (sg d))) with (s_scale (d_set d)).
  rewrite cmv_get_pg. destruct (getf (d_fwd d) n); cbn [bind]; auto.
  destruct (some_or TypeError (d_target d)) as [ot|]; cbn [bind]; auto.
  destruct (some_or TypeError (s_scale (d_set d))) as [sc|]; cbn [bind]; auto.
  destruct (getf (d_fwd d) k); cbn [bind]; auto. destruct (get_prop_grad k j d) as [[d1 g]|]; cbn [bind]; auto.
  change (d_onwd (sg d1)) with (d_onwd d1). destruct (k + 1 <? n); auto.
  destruct (some_or TypeError (d_onwd d1)) as [ow|]; cbn [bind]; auto. destruct (getf ow (k + 1)); auto.
Qed.
Lemma cmv_fid_grad : cmv compute_fid_grad.
Proof.
  intros d. unfold compute_fid_grad. rewrite cmv_num. destruct (get_num_ctrls d) as [[d1 nc]|]; cbn [bind]; auto.
  change (n_ts (sg d1)) with (n_ts d1). rewrite cmv_evo. destruct (compute_evolution d1) as [[d2 b]|]; cbn [bind]; auto.
  apply cmv_fill, cmv_unit.
Qed.
Lemma cmv_err_grad : cmv compute_fid_err_grad.
Proof.
  intros d. unfold compute_fid_err_grad. rewrite cmv_num. destruct (get_num_ctrls d) as [[d1 nc]|]; cbn [bind]; auto.
  change (n_ts (sg d1)) with (n_ts d1). rewrite cmv_evo. destruct (compute_evolution d1) as [[d2 b]|]; cbn [bind]; auto.
  apply cmv_fill, cmv_trace.
Qed.
Lemma bumpg_sg d : bump_grad (sg d) = sg (bump_grad d).
Proof. unfold bump_grad. change (d_stats (sg d)) with (d_stats d). destruct (d_stats d); reflexivity. Qed.

(** The gradient: recomputing it stores a new norm. *)
Lemma cm_gradient d : get_fid_err_gradient (sg d) =
  ('(d', g) <- get_fid_err_gradient d;; Ok (if f_grad_cur (d_fidst d) then sg d' else d', g)).
Proof.
  unfold get_fid_err_gradient. change (f_grad_cur (d_fidst (sg d))) with (f_grad_cur (d_fidst d)).
  change (f_grad (d_fidst (sg d))) with (f_grad (d_fidst d)). change (s_fid (d_set (sg d))) with (s_fid (d_set d)).
  rewrite cmv_fid_grad, cmv_err_grad.
  destruct (f_grad_cur (d_fidst d)); [destruct (some_or TypeError (f_grad (d_fidst d))); auto|].
  assert (E : forall d1 g, bump_grad (sg d1 <| d_fidst; f_grad := Some g |> <| d_fidst; f_grad_cur := true |>)
                             <| d_fidst; f_gradnorm := norm2 g |> =
                           bump_grad (d1 <| d_fidst; f_grad := Some g |> <| d_fidst; f_grad_cur := true |>)
                             <| d_fidst; f_gradnorm := norm2 g |>).
  { intros d1 g. unfold bump_grad. cbn. destruct (d_stats d1); reflexivity. }
  destruct (s_fid (d_set d)).
  - destruct (compute_fid_grad d) as [[d1 gp]|]; cbn [bind]; auto. rewrite cmv_fidelity.
    destruct (get_fidelity d1) as [[d2 fid]|]; cbn [bind]; auto. rewrite cmv_prenorm.
    destruct (get_fidelity_prenorm d2) as [[d3 pn]|]; cbn [bind]; auto. cbv zeta. rewrite E. reflexivity.
  - destruct (compute_fid_err_grad d) as [[d1 gp]|]; cbn [bind]; auto. cbv zeta. rewrite E. reflexivity.
Qed.
Lemma cm_update a : cm (update_ctrl_amps a).
Proof.
  intros d. unfold update_ctrl_amps, compare_amps. change (d_amps (sg d)) with (d_amps d).
  change (d_stats (sg d)) with (d_stats d).
  match goal with |- bind (bind ?m _) _ = _ => destruct m as [[[[] na] ns]|] end; cbn [bind]; auto.
  - destruct (d_stats d); reflexivity.
  - destruct (d_stats d); reflexivity.
Qed.
Lemma sg_same d : sg (sg d) = sg d. Proof. reflexivity. Qed.
Lemma sg_own d : f_gradnorm (d_fidst d) = x -> sg d = d.
Proof. intros E. unfold sg. rewrite <- E. destruct d as [? ? ? ? ? ? ? ? ? ? ? ? ? ? ? ? ? ? ? ? ? ? ? ? ? ? ? ? ? ? f ?]. destruct f; reflexivity. Qed.

End Norm.
