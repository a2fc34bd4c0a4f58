(** A computation that is not interrupted is the one of [Model/Dyn.v]. *)
From Coq Require Import Reals.
From Coquelicot Require Import Complex.
From RecordUpdate Require Import RecordUpdate.
From Verif.Model Require Import Base Dyn Fault.
From Verif.Lib Require Import Lists.
Local Open Scope nat_scope.
Set Bullet Behavior "Strict Subproofs".

Section Sim.
Context {A : Alg}.
Notation Op := (Op A).
Notation dyn := (dyn A).

(** The result without a budget, as [Model/Dyn.v] gives results. *)
Definition whole {X} (m : @M A X) (d : dyn) : Res (dyn * X) :=
  match m None d with
  | (d', Done x _) => Ok (d', x)
  | (_, Failed e) => Raise e
  | (_, Stopped) => Raise OutOfFuel
  end.

(** A budget only ever stops a computation. *)
Definition fair {X} (m : @M A X) : Prop :=
  forall b d, match m b d with
              | (d', Done x b') => m None d = (d', Done x None) /\ (b = None -> b' = None)
              | (d', Failed e) => m None d = (d', Failed e)
              | (_, Stopped) => b <> None
              end.

Lemma fair_ret {X} (x : X) : fair (mret x).
Proof. intros b d; cbn; auto. Qed.
Lemma fair_st {X} (f : dyn -> Res (dyn * X)) : fair (statement f).
Proof.
  intros b d. unfold statement. destruct b as [[|k]|].
  - congruence.
  - destruct (f d) as [[d' x]|e]; cbn; auto. split; auto; congruence.
  - destruct (f d) as [[d' x]|e]; cbn; auto.
Qed.
Lemma fair_reads {X} (f : dyn -> Res X) : fair (reads f). Proof. apply fair_st. Qed.
Lemma fair_writes (f : dyn -> Res dyn) : fair (writes f). Proof. apply fair_st. Qed.
Lemma fair_assign (f : dyn -> dyn) : fair (assign f). Proof. apply fair_st. Qed.
Lemma fair_stats f : fair (@with_stats A f). Proof. apply fair_st. Qed.
Lemma fair_bind {X Y} (m : M X) (k : X -> M Y) : fair m -> (forall x, fair (k x)) -> fair (mbind m k).
Proof.
  intros S1 S2 b d. specialize (S1 b d). unfold mbind.
  destruct (m b d) as [d' [x b'|e|]].
  - destruct S1 as (E & Q). rewrite E. specialize (S2 x b' d').
    destruct (k x b' d') as [d2 [y b2|e2|]]; auto. destruct S2; auto.
  - now rewrite S1.
  - auto.
Qed.
Lemma fair_for {X} l (body : nat -> X -> M X) : (forall k x, fair (body k x)) -> forall x, fair (mfor l body x).
Proof.
  intros S; induction l as [|k l IH]; intros x; cbn [mfor]; [apply fair_ret|].
  apply fair_bind; auto.
Qed.
Lemma fair_loop l (body : nat -> M unit) : (forall k, fair (body k)) -> fair (mloop l body).
Proof. intros S. apply fair_for; auto. Qed.

Ltac fairs := repeat first
  [ solve [auto] | apply fair_ret | apply fair_st | apply fair_reads | apply fair_writes | apply fair_assign | apply fair_stats
  | apply fair_bind; [|intros ?] | apply fair_for; intros ? ? | apply fair_loop; intros ?
  | match goal with |- fair (match ?x with _ => _ end) => destruct x end ].

Lemma fair_flag : fair m_flag_system_changed. Proof. unfold m_flag_system_changed; fairs. Qed.
Lemma fair_update a : fair (m_update_ctrl_amps a).
Proof. pose proof fair_flag. unfold m_update_ctrl_amps; fairs. Qed.
Lemma fair_combine k : fair (m_combine_dyn_gen k). Proof. unfold m_combine_dyn_gen; fairs. Qed.
Lemma fair_spectral k : fair (m_spectral_decomp k). Proof. unfold m_spectral_decomp; fairs. Qed.
Lemma fair_ensure k : fair (m_ensure_decomp_curr k).
Proof. pose proof fair_spectral. unfold m_ensure_decomp_curr; fairs. Qed.
Lemma fair_kind : fair kind_of. Proof. apply fair_reads. Qed.
Lemma fair_propagator k : fair (m_compute_propagator k).
Proof. pose proof fair_ensure. unfold m_compute_propagator, kind_of; fairs. Qed.
Lemma fair_prop_grad k j : fair (m_compute_prop_grad k j).
Proof. pose proof fair_ensure; pose proof fair_propagator. unfold m_compute_prop_grad, kind_of; fairs. Qed.
Lemma fair_step_gen k : fair (m_step_dyn_gen k).
Proof. pose proof fair_combine. unfold m_step_dyn_gen; fairs. Qed.
Lemma fair_write_prop k p : fair (write_prop k p). Proof. apply fair_writes. Qed.
Lemma fair_step_prop nc k : fair (m_step_prop nc k).
Proof. pose proof fair_prop_grad; pose proof fair_propagator; pose proof fair_write_prop. unfold m_step_prop; fairs. Qed.
Lemma fair_recompute : fair m_recompute_evolution.
Proof. pose proof fair_step_gen; pose proof fair_step_prop. unfold m_recompute_evolution; fairs. Qed.
Lemma fair_evolution : fair m_compute_evolution.
Proof. pose proof fair_recompute. unfold m_compute_evolution; fairs. Qed.
Lemma fair_get_pg k j : fair (m_get_prop_grad k j).
Proof. pose proof fair_prop_grad. unfold m_get_prop_grad; fairs. Qed.
Lemma fair_prenorm : fair m_get_fidelity_prenorm.
Proof. pose proof fair_evolution. unfold m_get_fidelity_prenorm; fairs. Qed.
Lemma fair_fidelity : fair m_get_fidelity.
Proof. pose proof fair_prenorm. unfold m_get_fidelity; fairs. Qed.
Lemma fair_fid_err : fair m_get_fid_err.
Proof. pose proof fair_evolution; pose proof fair_fidelity. unfold m_get_fid_err; fairs. Qed.
Lemma fair_fill {X} n nc (f : nat -> nat -> M X) z : (forall k j, fair (f k j)) -> fair (m_fill_grad n nc f z).
Proof. intros H. unfold m_fill_grad; fairs. Qed.
Lemma fair_unit k j : fair (m_unit_grad_entry k j).
Proof. pose proof fair_get_pg. unfold m_unit_grad_entry; fairs. Qed.
Lemma fair_trace n k j : fair (m_trace_grad_entry n k j).
Proof. pose proof fair_get_pg. unfold m_trace_grad_entry; fairs. Qed.
Lemma fair_fid_grad : fair m_compute_fid_grad.
Proof. pose proof fair_evolution. unfold m_compute_fid_grad; fairs; apply fair_fill, fair_unit. Qed.
Lemma fair_err_grad : fair m_compute_fid_err_grad.
Proof. pose proof fair_evolution. unfold m_compute_fid_err_grad; fairs; apply fair_fill, fair_trace. Qed.
Lemma fair_gradient : fair m_get_fid_err_gradient.
Proof.
  pose proof fair_fid_grad; pose proof fair_err_grad; pose proof fair_fidelity; pose proof fair_prenorm.
  unfold m_get_fid_err_gradient; fairs.
Qed.
Lemma fair_forget {X} (m : M X) : fair m -> fair (forget m). Proof. intros H; unfold forget; fairs. Qed.
Lemma fair_step o : fair (m_step o).
Proof.
  destruct o; cbn [m_step]; try apply fair_assign; try apply fair_forget;
    auto using fair_update, fair_evolution, fair_fid_err, fair_fidelity, fair_gradient.
Qed.

(** *** What a whole computation does *)
Lemma whole_ret {X} (x : X) d : whole (mret x) d = Ok (d, x). Proof. reflexivity. Qed.
Lemma whole_st {X} (f : dyn -> Res (dyn * X)) d : whole (statement f) d = f d.
Proof. unfold whole, statement. destruct (f d) as [[]|]; reflexivity. Qed.
Lemma whole_reads {X} (f : dyn -> Res X) d : whole (reads f) d = (x <- f d;; Ok (d, x)). Proof. exact (whole_st _ d). Qed.
Lemma whole_writes f d : whole (writes f) d = (d' <- f d;; Ok (d', tt)). Proof. exact (whole_st _ d). Qed.
Lemma whole_assign f d : whole (assign f) d = Ok (f d, tt). Proof. reflexivity. Qed.
Lemma whole_stats f d : whole (with_stats f) d = Ok (match d_stats d with
                   | Some st => d <| d_stats := Some (f st) |>
                   | None => d
                   end, tt). Proof. reflexivity. Qed.
Lemma whole_bind {X Y} (m : M X) (k : X -> M Y) d : fair m ->
  whole (mbind m k) d = ('(d', x) <- whole m d;; whole (k x) d').
Proof.
  intros F. specialize (F None d). unfold whole, mbind. destruct (m None d) as [d' [x b'|e|]]; cbn [bind]; auto.
  destruct F as (_ & ->); auto.
Qed.
Lemma whole_for {X} l (body : nat -> X -> M X) f : (forall k x, fair (body k x)) ->
  (forall k x d, whole (body k x) d = f k (d, x)) ->
  forall x d, whole (mfor l body x) d = for_each l f (d, x).
Proof.
  intros F E; induction l as [|k l IH]; intros x d; cbn [mfor for_each]; [apply whole_ret|].
  rewrite whole_bind by auto. rewrite E. destruct (f k (d, x)) as [[d' y]|]; cbn [bind]; auto.
Qed.
Lemma whole_loop l (body : nat -> M unit) f : (forall k, fair (body k)) ->
  (forall k d, whole (body k) d = (d' <- f k d;; Ok (d', tt))) ->
  forall d, whole (mloop l body) d = (d' <- for_each l f d;; Ok (d', tt)).
Proof.
  intros F E. unfold mloop.
  assert (G : forall u d, whole (mfor l (fun k _ => body k) u) d = (d' <- for_each l f d;; Ok (d', tt))).
  { induction l as [|k l IH]; intros u d; cbn [mfor for_each]; [destruct u; apply whole_ret|].
    rewrite whole_bind by auto. rewrite E. destruct (f k d) as [d'|]; cbn [bind]; auto. }
  auto.
Qed.

(** A computation that ends by itself ends as [Model/Dyn.v] says. *)
Lemma fair_done {X} (m : M X) b d d' x b' : fair m -> m b d = (d', Done x b') -> whole m d = Ok (d', x).
Proof. intros F E. specialize (F b d). rewrite E in F. destruct F as (F & _). unfold whole; now rewrite F. Qed.
Lemma fair_failed {X} (m : M X) b d d' e : fair m -> m b d = (d', Failed e) -> whole m d = Raise e.
Proof. intros F E. specialize (F b d). rewrite E in F. unfold whole; now rewrite F. Qed.
Lemma whole_none {X} (m : M X) d d' x : fair m -> whole m d = Ok (d', x) -> m None d = (d', Done x None).
Proof.
  intros F E. specialize (F None d). unfold whole in E. destruct (m None d) as [d2 [y b|e|]]; try discriminate.
  injection E as -> ->. destruct F as (_ & ->); auto.
Qed.

#[local] Hint Resolve fair_ret fair_st fair_reads fair_writes fair_assign fair_stats fair_flag fair_update fair_combine
  fair_spectral fair_ensure fair_kind fair_propagator fair_prop_grad fair_step_gen fair_write_prop fair_step_prop
  fair_recompute fair_evolution fair_get_pg fair_prenorm fair_fidelity fair_fid_err fair_unit fair_trace
  fair_fid_grad fair_err_grad fair_gradient fair_loop : fair.

Ltac wh := repeat first
  [ rewrite whole_bind by fairs
  | progress rewrite ?whole_ret, ?whole_reads, ?whole_writes, ?whole_assign, ?whole_stats, ?whole_st
  | progress cbn [bind] ].
Ltac crush1 :=
  match goal with
  | |- context [whole (match ?x with _ => _ end)] => destruct x eqn:?
  | |- context [bind ?m _] =>
      lazymatch m with bind _ _ => fail | Ok _ => fail | Raise _ => fail | whole _ _ => fail
      | match ?x with _ => _ end => destruct x eqn:?
      | _ => destruct m eqn:? end
  end.
Ltac tidy := wh; cbn -[whole for_each mbind reads writes assign with_stats mloop]; wh; try reflexivity.
Ltac crush := tidy; repeat (crush1; tidy).

Lemma whole_flag d : whole m_flag_system_changed d = Ok (flag_system_changed d, tt).
Proof. reflexivity. Qed.

Lemma whole_update a d : whole (m_update_ctrl_amps a) d = (d' <- update_ctrl_amps a d;; Ok (d', tt)).
Proof.
  unfold m_update_ctrl_amps, update_ctrl_amps, compare_amps. pose proof fair_flag. wh.
  change (match d_amps d with None => _ | Some _ => _ end) with (amps_changed a d).
  destruct (amps_changed a d) as [[[ch na] ns]|]; cbn [bind]; auto. wh.
  destruct ch.
  - cbn beta iota. wh. rewrite ?whole_flag. destruct d as [? ? ? ? ? ? ? ? ? ? ? ? ? ? ? ? ? ? ? ? ? ? ? ? ? ? ? ? ? ? ? [st|]]; cbn; auto.
  - cbn beta iota. wh. rewrite ?whole_flag. destruct d as [? ? ? ? ? ? ? ? ? ? ? ? ? ? ? ? ? ? ? ? ? ? ? ? ? ? ? ? ? ? ? [st|]]; cbn; auto.
Qed.

Lemma whole_combine k d : whole (m_combine_dyn_gen k) d = (d' <- combine_dyn_gen k d;; Ok (d', tt)).
Proof.
  unfold m_combine_dyn_gen, combine_dyn_gen. wh. unfold slot_generator. crush.
Qed.

Lemma whole_spectral k d : whole (m_spectral_decomp k) d = (d' <- spectral_decomp k d;; Ok (d', tt)).
Proof.
  unfold m_spectral_decomp, spectral_decomp. wh. destruct (s_class (d_set d)); auto.
  destruct (getf (d_dg d) k) as [H|]; cbn [bind]; auto. destruct (oeigh A H) as [lam V]; cbn [fst snd]. crush.
Qed.

Lemma whole_ensure k d : whole (m_ensure_decomp_curr k) d = (d' <- ensure_decomp_curr k d;; Ok (d', tt)).
Proof.
  unfold m_ensure_decomp_curr, ensure_decomp_curr. pose proof fair_spectral. wh.
  destruct (d_dcur d) as [cur|]; auto. destruct (get cur k) as [[]|]; cbn [bind]; auto. apply whole_spectral.
Qed.

Lemma whole_propagator k d : whole (m_compute_propagator k) d = compute_propagator k d.
Proof.
  unfold m_compute_propagator, compute_propagator, kind_of. pose proof fair_ensure. wh.
  destruct (s_prop (d_set d)); [crush| |crush..].
  wh. rewrite whole_ensure. destruct (ensure_decomp_curr k d); cbn [bind]; auto. crush.
Qed.

Lemma whole_prop_grad k j d : whole (m_compute_prop_grad k j) d = compute_prop_grad k j d.
Proof.
  unfold m_compute_prop_grad, compute_prop_grad, kind_of. pose proof fair_ensure. pose proof fair_propagator. wh.
  destruct (s_prop (d_set d)); [reflexivity| |crush..].
  wh. rewrite whole_ensure. destruct (ensure_decomp_curr k d) as [d1|]; cbn [bind]; auto.
  wh. rewrite whole_propagator. destruct (compute_propagator k d1) as [[d2 p]|]; cbn [bind]; auto. crush.
Qed.

Lemma whole_step_gen k d : whole (m_step_dyn_gen k) d = (d' <- step_dyn_gen k d;; Ok (d', tt)).
Proof.
  unfold m_step_dyn_gen, step_dyn_gen. pose proof fair_combine. wh. rewrite whole_combine.
  destruct (combine_dyn_gen k d) as [d1|]; cbn [bind]; auto. crush.
Qed.

Lemma whole_step_prop nc k d : whole (m_step_prop nc k) d = (d' <- step_prop nc k d;; Ok (d', tt)).
Proof.
  unfold m_step_prop, step_prop. pose proof fair_prop_grad. pose proof fair_propagator. pose proof fair_write_prop. wh.
  destruct (grad_exact (s_prop (d_set d)) && s_cache_pg (d_set d)).
  - apply whole_loop; [intros; fairs|]. intros j d1. wh. rewrite whole_prop_grad.
    destruct (compute_prop_grad k j d1) as [[d2 [p g]]|]; cbn [bind]; auto.
    wh. destruct (j =? 0); unfold write_prop; wh; [|reflexivity].
    destruct (set (d_prop d2) k (Some p)); cbn [bind]; auto. now wh.
  - wh. rewrite whole_propagator. destruct (compute_propagator k d) as [[d2 p]|]; cbn [bind]; auto.
    unfold write_prop; wh; crush.
Qed.

Lemma whole_recompute d : whole m_recompute_evolution d = (d' <- recompute_evolution d;; Ok (d', tt)).
Proof.
  unfold m_recompute_evolution, recompute_evolution. pose proof fair_step_gen. pose proof fair_step_prop. wh.
  destruct (get_num_ctrls d) as [[d1 nc]|]; cbn [bind]; auto. cbn beta iota. wh.
  set (d2 := match d_stats _ with Some _ => _ | None => _ end).
  rewrite (whole_loop _ _ step_dyn_gen) by (auto; apply whole_step_gen).
  destruct (for_each (range (n_ts d)) step_dyn_gen d2) as [d3|]; cbn [bind]; auto. wh.
  rewrite (whole_loop _ _ (step_prop nc)) by (auto; apply whole_step_prop).
  destruct (for_each (range (n_ts d)) (step_prop nc) d3) as [d4|]; cbn [bind]; auto. wh.
  rewrite (whole_loop _ _ step_fwd) by (intros; first [apply whole_writes|fairs]).
  destruct (for_each (range (n_ts d)) step_fwd d4) as [d5|]; cbn [bind]; auto. wh.
  destruct (s_fid (d_set d5)) eqn:Ef; cbn [uses_onwd uses_onto]; wh.
  - rewrite Ef; cbn [uses_onto]. apply whole_loop; intros; [fairs|apply whole_writes].
  - destruct (get (d_prop d5) (n_ts d - 1)); cbn [bind]; auto.
    destruct (some_or TypeError (d_onwd d5)); cbn [bind]; auto.
    destruct (set a0 (n_ts d - 1) a) as [l|]; cbn [bind]; auto. wh.
    rewrite (whole_loop _ _ step_onwd) by (intros; first [apply whole_writes|fairs]).
    destruct (for_each (range_down (n_ts d - 1)) step_onwd (d5 <| d_onwd := Some l |>)) as [d6|] eqn:E6; cbn [bind]; auto.
    wh. destruct (uses_onto (s_fid (d_set d6))); [|reflexivity].
    apply whole_loop; intros; [fairs|apply whole_writes].
Qed.

Lemma whole_evolution d : whole m_compute_evolution d = compute_evolution d.
Proof.
  unfold m_compute_evolution, compute_evolution. pose proof fair_recompute. wh. destruct (d_evo_cur d); auto. wh.
  rewrite whole_recompute. destruct (recompute_evolution d); cbn [bind]; auto.
Qed.

Lemma whole_get_pg k j d : whole (m_get_prop_grad k j) d = get_prop_grad k j d.
Proof.
  unfold m_get_prop_grad, get_prop_grad. pose proof fair_prop_grad. wh. destruct (s_cache_pg (d_set d)); [crush|].
  wh. rewrite whole_prop_grad. destruct (compute_prop_grad k j d) as [[d1 [p g]]|]; reflexivity.
Qed.

Lemma whole_prenorm d : whole m_get_fidelity_prenorm d = get_fidelity_prenorm d.
Proof.
  unfold m_get_fidelity_prenorm, get_fidelity_prenorm. pose proof fair_evolution. wh.
  destruct (f_pre_cur (d_fidst d)); [crush|]. wh. rewrite whole_evolution.
  destruct (compute_evolution d) as [[d1 b]|]; cbn [bind]; auto. crush. 
Qed.

Lemma whole_fidelity d : whole m_get_fidelity d = get_fidelity d.
Proof.
  unfold m_get_fidelity, get_fidelity. pose proof fair_prenorm. wh.
  destruct (s_fid (d_set d)); auto. wh. destruct (f_fid_cur (d_fidst d)); [crush|]. wh. rewrite whole_prenorm.
  destruct (get_fidelity_prenorm d) as [[d1 f]|]; cbn [bind]; auto.
Qed.

Lemma whole_fid_err d : whole m_get_fid_err d = get_fid_err d.
Proof.
  unfold m_get_fid_err, get_fid_err. pose proof fair_fidelity. pose proof fair_evolution. wh.
  destruct (s_fid (d_set d)); wh.
  - rewrite whole_fidelity. destruct (get_fidelity d) as [[d1 f]|]; reflexivity.
  - destruct (f_fid_cur (d_fidst d)); [crush|]. wh. rewrite whole_evolution.
    destruct (compute_evolution d) as [[d1 b]|]; cbn [bind]; auto. crush.
Qed.

Lemma whole_fill {X} n nc (f : nat -> nat -> M X) g z : (forall k j, fair (f k j)) ->
  (forall k j d, whole (f k j) d = g k j d) -> forall d, whole (m_fill_grad n nc f z) d = fill_grad n nc g z d.
Proof.
  intros F E d. unfold m_fill_grad, fill_grad.
  apply (whole_for (range nc) _ (fun j s => for_each (range n)
       (fun k '(d, g0) =>
          '(d, v) <- g k j d;; row <- get g0 k;; row' <- set row j v;; g' <- set g0 k row';; Ok (d, g')) s)).
  - intros; fairs.
  - intros j x d1.
    apply (whole_for (range n) _ (fun k '(d, g0) =>
          '(d, v) <- g k j d;; row <- get g0 k;; row' <- set row j v;; g' <- set g0 k row';; Ok (d, g'))).
    + intros; fairs.
    + intros k x' d2. wh. rewrite E. destruct (g k j d2) as [[d3 v]|]; cbn [bind]; auto. crush.
Qed.

Lemma whole_unit k j d : whole (m_unit_grad_entry k j) d = unit_grad_entry k j d.
Proof.
  unfold m_unit_grad_entry, unit_grad_entry. pose proof fair_get_pg. wh.
  destruct (getf (d_fwd d) k) as [x|]; cbn [bind]; auto.
  destruct (some_or TypeError (d_onto d)) as [ot|]; cbn [bind]; auto.
  destruct (getf ot (k + 1)) as [y|]; cbn [bind]; auto. wh. rewrite whole_get_pg.
  destruct (get_prop_grad k j d) as [[d1 g]|]; reflexivity.
Qed.

Lemma whole_trace n k j d : whole (m_trace_grad_entry n k j) d = trace_grad_entry n k j d.
Proof.
  unfold m_trace_grad_entry, trace_grad_entry. pose proof fair_get_pg. wh.
  destruct (getf (d_fwd d) n) as [x|]; cbn [bind]; auto.
  destruct (some_or TypeError (d_target d)) as [tg|]; cbn [bind]; auto.
  destruct (some_or TypeError (s_scale (d_set d))) as [sc|]; cbn [bind]; auto.
  destruct (getf (d_fwd d) k) as [y|]; cbn [bind]; auto. wh. rewrite whole_get_pg.
  destruct (get_prop_grad k j d) as [[d1 g]|]; cbn [bind]; auto. crush.
Qed.

Lemma whole_fid_grad d : whole m_compute_fid_grad d = compute_fid_grad d.
Proof.
  unfold m_compute_fid_grad, compute_fid_grad. pose proof fair_evolution.
  wh. destruct (get_num_ctrls d) as [[d1 nc]|]; cbn [bind]; auto. wh. rewrite whole_evolution.
  destruct (compute_evolution d1) as [[d2 b]|]; cbn [bind]; auto.
  apply whole_fill; [apply fair_unit|apply whole_unit].
Qed.

Lemma whole_err_grad d : whole m_compute_fid_err_grad d = compute_fid_err_grad d.
Proof.
  unfold m_compute_fid_err_grad, compute_fid_err_grad. pose proof fair_evolution.
  wh. destruct (get_num_ctrls d) as [[d1 nc]|]; cbn [bind]; auto. wh. rewrite whole_evolution.
  destruct (compute_evolution d1) as [[d2 b]|]; cbn [bind]; auto.
  apply whole_fill; [apply fair_trace|apply whole_trace].
Qed.

Lemma whole_gradient d : whole m_get_fid_err_gradient d = get_fid_err_gradient d.
Proof.
  unfold m_get_fid_err_gradient, get_fid_err_gradient.
  pose proof fair_fid_grad; pose proof fair_err_grad; pose proof fair_fidelity; pose proof fair_prenorm.
  wh. destruct (f_grad_cur (d_fidst d)); [crush|]. wh. destruct (s_fid (d_set d)); wh.
  - rewrite whole_fid_grad. destruct (compute_fid_grad d) as [[d1 gp]|]; cbn [bind]; auto. wh.
    rewrite whole_fidelity. destruct (get_fidelity d1) as [[d2 fid]|]; cbn [bind]; auto. wh.
    rewrite whole_prenorm. destruct (get_fidelity_prenorm d2) as [[d3 pn]|]; cbn [bind]; auto.
  - rewrite whole_err_grad. destruct (compute_fid_err_grad d) as [[d1 gp]|]; cbn [bind]; auto.
Qed.

Lemma whole_forget {X} (m : M X) d : fair m -> whole (forget m) d = ('(d', _) <- whole m d;; Ok (d', tt)).
Proof. intros F. unfold forget. rewrite whole_bind by auto. destruct (whole m d) as [[]|]; reflexivity. Qed.

Lemma whole_step o d : whole (m_step o) d = (d' <- step o d;; Ok (d', tt)).
Proof.
  destruct o; cbn [m_step step]; try reflexivity.
  - apply whole_update.
  - rewrite whole_forget by apply fair_evolution. rewrite whole_evolution. destruct (compute_evolution d) as [[]|]; reflexivity.
  - rewrite whole_forget by apply fair_fid_err. rewrite whole_fid_err. destruct (get_fid_err d) as [[]|]; reflexivity.
  - rewrite whole_forget by apply fair_fidelity. rewrite whole_fidelity. destruct (get_fidelity d) as [[]|]; reflexivity.
  - rewrite whole_forget by apply fair_gradient. rewrite whole_gradient. destruct (get_fid_err_gradient d) as [[]|]; reflexivity.
Qed.

(** The step of [Model/Dyn.v] is what an uninterrupted call does. *)
Lemma call_whole o (d d' : dyn) : step o d = Ok d' -> m_call (o, None) d = d'.
Proof.
  intros E. unfold m_call; cbn [fst snd].
  rewrite (whole_none (m_step o) d d' tt (fair_step o)); auto. rewrite whole_step, E. reflexivity.
Qed.

End Sim.
