(** Interruptions at chosen places: how many statements a computation takes,
    what an update looks like half way through, and the gradient query just
    before it stores the norm. *)
From Coq Require Import Reals Lra.
From Coquelicot Require Import Complex.
From RecordUpdate Require Import RecordUpdate.
From Verif.Model Require Import Base Dyn Fault.
From Verif.Lib Require Import Lists.
From Verif.Spec Require Import Evolution History Faults.
From Verif.Proofs Require Import DynInv DynRun DynHist DynHistory DynProps FaultSim FaultNorm FaultFacts.
Local Open Scope nat_scope.
Set Bullet Behavior "Strict Subproofs".

Section Pace.
Context {A : Alg}.
Notation dyn := (dyn A).

(** A computation that finishes does so with a budget of its own, and leaves
    the rest. *)
Definition paced {X} (p : @M A X) : Prop := forall d d' x, p None d = (d', Done x None) ->
  exists k, forall j, p (Some (k + j)) d = (d', Done x (Some j)).
Definition pf {X} (p : @M A X) : Prop := fair p /\ paced p.

Lemma pf_ret {X} (x : X) : pf (mret x).
Proof. split; [apply fair_ret|]. intros d d' y E. injection E as <- <-. exists 0. reflexivity. Qed.
Lemma pf_st {X} (f : dyn -> Res (dyn * X)) : pf (statement f).
Proof.
  split; [apply fair_st|]. intros d d' x E. exists 1. intros j. unfold statement in *. cbn [Nat.add].
  destruct (f d) as [[d1 y]|]; try discriminate. cbn in *. injection E as -> ->. reflexivity.
Qed.
Lemma pf_reads {X} (f : dyn -> Res X) : pf (reads f). Proof. apply pf_st. Qed.
Lemma pf_writes (f : dyn -> Res dyn) : pf (writes f). Proof. apply pf_st. Qed.
Lemma pf_assign (f : dyn -> dyn) : pf (assign f). Proof. apply pf_st. Qed.
Lemma pf_stats f : pf (@with_stats A f). Proof. apply pf_st. Qed.
Lemma pf_bind {X Y} (p : M X) (k : X -> M Y) : pf p -> (forall x, pf (k x)) -> pf (mbind p k).
Proof.
  intros (F1 & P1) H. split; [apply fair_bind; auto; intros; apply H|].
  intros d d' y E. unfold mbind in E. pose proof (F1 None d) as F. destruct (p None d) as [d1 [x b|e|]] eqn:Ep; try discriminate.
  destruct F as (_ & F). rewrite (F eq_refl) in *. clear F.
  destruct (P1 d d1 x Ep) as (k1 & H1). destruct (proj2 (H x) d1 d' y E) as (k2 & H2).
  exists (k1 + k2). intros j. unfold mbind. replace (k1 + k2 + j) with (k1 + (k2 + j)) by lia. rewrite H1. apply H2.
Qed.
Lemma pf_for {X} l (body : nat -> X -> M X) : (forall k x, pf (body k x)) -> forall x, pf (mfor l body x).
Proof. intros H; induction l as [|k l IH]; intros x; cbn [mfor]; [apply pf_ret|]. apply pf_bind; auto. Qed.
Lemma pf_loop l (body : nat -> M unit) : (forall k, pf (body k)) -> pf (mloop l body).
Proof. intros H. apply pf_for; auto. Qed.

Ltac pfs := repeat first
  [ solve [auto] | apply pf_ret | apply pf_st | apply pf_reads | apply pf_writes | apply pf_assign | apply pf_stats
  | apply pf_bind; [|intros ?] | apply pf_for; intros ? ? | apply pf_loop; intros ?
  | match goal with |- pf (match ?x with _ => _ end) => destruct x end ].

Lemma pf_combine k : pf (m_combine_dyn_gen k). Proof. unfold m_combine_dyn_gen; pfs. Qed.
Lemma pf_spectral k : pf (m_spectral_decomp k). Proof. unfold m_spectral_decomp; pfs. Qed.
Lemma pf_ensure k : pf (m_ensure_decomp_curr k).
Proof. pose proof pf_spectral. unfold m_ensure_decomp_curr; pfs. Qed.
Lemma pf_propagator k : pf (m_compute_propagator k).
Proof. pose proof pf_ensure. unfold m_compute_propagator, kind_of; pfs. Qed.
Lemma pf_prop_grad k j : pf (m_compute_prop_grad k j).
Proof. pose proof pf_ensure; pose proof pf_propagator. unfold m_compute_prop_grad, kind_of; pfs. Qed.
Lemma pf_step_gen k : pf (m_step_dyn_gen k).
Proof. pose proof pf_combine. unfold m_step_dyn_gen; pfs. Qed.
Lemma pf_write_prop k p : pf (write_prop k p). Proof. apply pf_writes. Qed.
Lemma pf_step_prop nc k : pf (m_step_prop nc k).
Proof. pose proof pf_prop_grad; pose proof pf_propagator; pose proof pf_write_prop. unfold m_step_prop; pfs. Qed.
Lemma pf_recompute : pf m_recompute_evolution.
Proof. pose proof pf_step_gen; pose proof pf_step_prop. unfold m_recompute_evolution; pfs. Qed.
Lemma pf_evolution : pf m_compute_evolution.
Proof. pose proof pf_recompute. unfold m_compute_evolution; pfs. Qed.
Lemma pf_get_pg k j : pf (m_get_prop_grad k j).
Proof. pose proof pf_prop_grad. unfold m_get_prop_grad; pfs. Qed.
Lemma pf_prenorm : pf m_get_fidelity_prenorm.
Proof. pose proof pf_evolution. unfold m_get_fidelity_prenorm; pfs. Qed.
Lemma pf_fidelity : pf m_get_fidelity.
Proof. pose proof pf_prenorm. unfold m_get_fidelity; pfs. Qed.
Lemma pf_fill {X} n nc (f : nat -> nat -> M X) z : (forall k j, pf (f k j)) -> pf (m_fill_grad n nc f z).
Proof. intros H. unfold m_fill_grad; pfs. Qed.
Lemma pf_unit k j : pf (m_unit_grad_entry k j).
Proof. pose proof pf_get_pg. unfold m_unit_grad_entry; pfs. Qed.
Lemma pf_trace n k j : pf (m_trace_grad_entry n k j).
Proof. pose proof pf_get_pg. unfold m_trace_grad_entry; pfs. Qed.
Lemma pf_fid_grad : pf m_compute_fid_grad.
Proof. pose proof pf_evolution. unfold m_compute_fid_grad; pfs; apply pf_fill, pf_unit. Qed.
Lemma pf_err_grad : pf m_compute_fid_err_grad.
Proof. pose proof pf_evolution. unfold m_compute_fid_err_grad; pfs; apply pf_fill, pf_trace. Qed.
Lemma pf_calc fk : pf (grad_calc fk).
Proof.
  pose proof pf_fid_grad; pose proof pf_err_grad; pose proof pf_fidelity; pose proof pf_prenorm.
  unfold grad_calc; pfs.
Qed.

(** *** The gradient query, stopped before the norm is stored *)
Lemma calc_norm fk (d d1 : dyn) g : whole (grad_calc fk) d = Ok (d1, g) -> f_gradnorm (d_fidst d1) = f_gradnorm (d_fidst d).
Proof.
  set (x := f_gradnorm (d_fidst d)). intros E.
  assert (C : whole (grad_calc fk) (sg x d) = ('(d', v) <- whole (grad_calc fk) d;; Ok (sg x d', v))).
  { destruct fk; cbn [grad_calc].
    - rewrite !(whole_bind m_compute_fid_grad) by apply fair_fid_grad. rewrite !whole_fid_grad, cmv_fid_grad.
      destruct (compute_fid_grad d) as [[d2 gp]|]; cbn [bind]; auto.
      rewrite !(whole_bind m_get_fidelity) by apply fair_fidelity. rewrite !whole_fidelity, cmv_fidelity.
      destruct (get_fidelity d2) as [[d3 fid]|]; cbn [bind]; auto.
      rewrite !(whole_bind m_get_fidelity_prenorm) by apply fair_prenorm. rewrite !whole_prenorm, cmv_prenorm.
      destruct (get_fidelity_prenorm d3) as [[d4 pn]|]; cbn [bind]; auto.
    - rewrite !whole_err_grad, cmv_err_grad. reflexivity. }
  rewrite (sg_own x d) in C by reflexivity. rewrite E in C. cbn [bind] in C. injection C as C. rewrite C. reflexivity.
Qed.

Lemma gradient_cut (d d1 : dyn) g : f_grad_cur (d_fidst d) = false -> whole (grad_calc (s_fid (d_set d))) d = Ok (d1, g) ->
  exists k st, m_call (GetGradient, Some k) d =
    d1 <| d_fidst; f_grad := Some g |> <| d_fidst; f_grad_cur := true |> <| d_stats := st |>.
Proof.
  intros G E. apply whole_none in E; [|apply fair_calc].
  destruct (proj2 (pf_calc _) _ _ _ E) as (k & Hk). exists (S (S (k + 3))).
  unfold m_call; cbn [fst snd m_step]. unfold forget.
  assert (H : m_get_fid_err_gradient (Some (S (S (k + 3)))) d =
    mbind (grad_calc (s_fid (d_set d))) (fun g =>
    _ <~ assign (fun d : dyn => d <| d_fidst; f_grad := Some g |>);;
    _ <~ assign (fun d : dyn => d <| d_fidst; f_grad_cur := true |>);;
    _ <~ with_stats (fun st => st <| st_grad := S (st_grad st) |>);;
    _ <~ assign (fun d : dyn => d <| d_fidst; f_gradnorm := norm2 g |>);;
    mret g) (Some (k + 3)) d).
  { unfold m_get_fid_err_gradient, mbind at 1. unfold reads at 1, statement at 1. cbn [bind]. rewrite G.
    unfold mbind at 1. unfold reads at 1, statement at 1. cbn [bind]. reflexivity. }
  unfold mbind at 1. rewrite H. unfold mbind at 1. rewrite Hk. cbn.
  destruct (d_stats d1) eqn:Es; cbn; eexists; [reflexivity|].
  instantiate (1 := None). destruct d1; cbn in *; subst; reflexivity.
Qed.

(** *** Updates *)
Lemma update_cut (d : dyn) n m a b : d_amps d = Some a -> shape n m a -> shape n m b -> a <> b ->
  exists st, m_call (UpdateAmps b, Some 5) d = d <| d_stats := st |> <| d_amps := Some b |>.
Proof.
  intros Ea Sa Sb Hn. unfold m_call; cbn [fst snd m_step]. unfold m_update_ctrl_amps.
  destruct (neq_amps_spec n m a b Sa Sb) as (ch & Ech & Hch).
  assert (E : exists p q, amps_changed b d = Ok (true, p, q)).
  { unfold amps_changed. rewrite Ea, Ech. cbn [bind]. rewrite (proj2 Hch Hn). eauto. }
  destruct E as (p & q & E). unfold mbind at 1. unfold reads, statement at 1. rewrite E. cbn.
  destruct (d_stats d) eqn:Es; cbn; eexists; [reflexivity|].
  instantiate (1 := None). destruct d; cbn in *; subst; reflexivity.
Qed.

Lemma update_same (d : dyn) n m b : d_amps d = Some b -> shape n m b -> m_call (UpdateAmps b, None) d = d.
Proof.
  intros Eb Sb. unfold m_call; cbn [fst snd m_step]. unfold m_update_ctrl_amps.
  destruct (neq_amps_spec n m b b Sb Sb) as (ch & Ech & Hch).
  assert (E : amps_changed b d = Ok (false, 0, 0)).
  { unfold amps_changed. rewrite Eb, Ech. cbn [bind]. destruct (any (map any ch)); auto.
    exfalso. apply Hch; auto. }
  unfold mbind at 1. unfold reads, statement at 1. rewrite E. cbn.
  destruct (d_stats d) as [st|] eqn:Es; cbn; rewrite ?Es; auto. rewrite !Nat.add_0_r.
  destruct d; cbn in *; subst. destruct st; reflexivity.
Qed.

(** Before the fifth statement nothing is stored; the ninth is the last. *)
Lemma update_early (d : dyn) b k : k <= 4 -> d_amps (m_call (UpdateAmps b, Some k) d) = d_amps d.
Proof.
  intros Hk. unfold m_call; cbn [fst snd m_step]. unfold m_update_ctrl_amps.
  destruct k as [|k]; [reflexivity|].
  unfold mbind at 1. unfold reads, statement at 1. destruct (amps_changed b d) as [[[ch p] q]|]; cbn; auto.
  do 4 (destruct k as [|k]; cbn; [destruct ch, (d_stats d) eqn:Es; cbn; rewrite ?Es; cbn; rewrite ?Es; reflexivity|]). lia.
Qed.

Lemma update_late (d : dyn) b k : 9 <= k -> ~ torn d (m_call (UpdateAmps b, Some k) d).
Proof.
  intros Hk. do 9 (destruct k as [|k]; [lia|]). clear Hk. unfold m_call; cbn [fst snd m_step]. unfold m_update_ctrl_amps.
  unfold mbind at 1. unfold reads, statement at 1. destruct (amps_changed b d) as [[[ch p] q]|]; cbn [bind option_map pred].
  2:{ cbn. intros (H & _). now apply H. }
  destruct ch.
  - intros (_ & H). cbn in H. destruct (d_stats d) eqn:Es; cbn in H; rewrite ?Es in H; cbn in H; rewrite ?Es in H; cbn in H; destruct H as [H|[H|[H|H]]]; discriminate.
  - intros (H & _). apply H. cbn. destruct (d_stats d) eqn:Es; cbn; rewrite ?Es; cbn; rewrite ?Es; reflexivity.
Qed.

Lemma err_sets (d d' : dyn) v : get_fid_err d = Ok (d', v) -> f_fid_cur (d_fidst d') = true.
Proof.
  unfold get_fid_err. destruct (s_fid (d_set d)) eqn:HF.
  - unfold get_fidelity. rewrite HF. destruct (f_fid_cur (d_fidst d)) eqn:Ec.
    + destruct (f_fidelity (d_fidst d)); cbn [some_or bind]; try discriminate. intros E; injection E as <- <-; auto.
    + destruct (get_fidelity_prenorm d) as [[d1 f]|]; cbn [bind]; try discriminate. intros E; injection E as <- <-; auto.
  - destruct (f_fid_cur (d_fidst d)) eqn:Ec.
    + destruct (f_fid_err (d_fidst d)); cbn [some_or bind]; try discriminate. intros E; injection E as <- <-; auto.
    + destruct (compute_evolution d) as [[d1 f]|]; cbn [bind]; try discriminate.
      destruct (getf (d_fwd d1) (n_ts d1)); cbn [bind]; try discriminate.
      destruct (d_target d1); cbn [some_or bind]; try discriminate.
      destruct (s_scale (d_set d1)); cbn [some_or bind]; try discriminate. intros E; injection E as <- <-; auto.
Qed.
End Pace.

Section Torn.
Context {A : Alg} (s : settings A) (n m : nat).
Hypothesis W : well_posed s n m.
Hypothesis RO : routines_ok s n m.

Lemma err_kept a d st b : Good s n m a d -> f_fid_cur (d_fidst d) = true ->
  exists d1, get_fid_err (d <| d_stats := st |> <| d_amps := b |>) = Ok (d1, fid_err_of s a).
Proof.
  intros (dr & c & _ & _ & _ & _ & I) C. unfold get_fid_err, get_fidelity. cbn.
  rewrite (st_set _ _ _ _ _ _ (inv_st _ _ _ _ _ _ _ I)), settled_fid. unfold fid_err_of.
  case_eq (s_fid s); intros HF; rewrite C.
  - rewrite (inv_fid _ _ _ _ _ _ _ I HF C). cbn. eauto.
  - rewrite (inv_err _ _ _ _ _ _ _ I HF C). cbn. eauto.
Qed.

Lemma torn_run st a b : shape n m a -> shape n m b -> a <> b -> exists d d1,
  faulty_session s st a [(GetFidErr, None); (UpdateAmps b, Some 5); (UpdateAmps b, None)] = Ok d /\
  d_amps d = Some b /\ get_fid_err d = Ok (d1, fid_err_of s a).
Proof.
  intros Sa Sb Hn. unfold faulty_session. destruct (session_good0 s n m W RO st a Sa) as (d0 & -> & G0). cbn [bind m_calls].
  destruct (good_err s n m W RO a d0 G0) as (d1 & E1 & G1).
  assert (C1 : m_call (GetFidErr, None) d0 = d1).
  { apply call_whole. cbn [step]. rewrite E1. reflexivity. }
  rewrite C1. pose proof (err_sets _ _ _ E1) as Cu.
  destruct (good0_amps s n m a d1 (good_good0 s n m a d1 G1)) as (Ea & _).
  destruct (update_cut d1 n m a b Ea Sa Sb Hn) as (st' & ->).
  rewrite (update_same _ n m b) by auto.
  destruct (err_kept a d1 st' (Some b) G1 Cu) as (d2 & E2). eexists _, d2; splits; eauto.
Qed.

Lemma window l : forall a d, Forall (fun c => call_ok s n m (fst c)) l ->
  Forall (fun c : call => match c with (UpdateAmps _, Some k) => k <= 4 \/ 9 <= k | _ => True end) l ->
  Good0 s n m a d -> untorn l d.
Proof.
  induction l as [|[o b] l IH]; intros a d F Fw G; cbn [untorn]; auto.
  pose proof (Forall_inv F) as Ho. pose proof (Forall_inv_tail F) as F'. cbn [fst] in Ho.
  pose proof (Forall_inv Fw) as Hw. pose proof (Forall_inv_tail Fw) as Fw'. cbn beta in Hw.
  destruct (updates o) as [b0|] eqn:Eu.
  - destruct o as [b1| | | | | | | | | | ]; try discriminate. injection Eu as ->. cbn [call_ok] in Ho.
    assert (Hnt : ~ torn d (m_call (UpdateAmps b0, b) d)).
    { destruct b as [k|].
      - destruct Hw as [Hk|Hk]; [|now apply update_late].
        intros (H & _). apply H. symmetry. now apply update_early.
      - destruct (good0_inv s n m a d) as (GI & _). destruct (GI G) as (dr & c & _ & _ & _ & _ & I).
        pose proof (proj1 (good0_amps s n m a d G)) as Ea.
        destruct (list_eq_dec (list_eq_dec Req_EM_T) a b0) as [->|Hn].
        + rewrite (update_same d n m b0 Ea Ho). intros (H & _). now apply H.
        + intros (_ & H). destruct I as (x & I).
          destruct (update_ok s n m dr c a b0 _ Ho I) as (d2 & E2 & _).
          rewrite cm_update in E2. destruct (update_ctrl_amps b0 d) as [d3|] eqn:E3; try discriminate.
          assert (C : m_call (UpdateAmps b0, None) d = d3) by (apply call_whole; auto). rewrite C in H.
          unfold update_ctrl_amps, compare_amps in E3. rewrite Ea in E3.
          destruct (neq_amps_spec n m a b0 (proj2 (good0_amps s n m a d G)) Ho) as (ch & Ech & Hch). rewrite Ech in E3. cbn [bind] in E3.
          rewrite (proj2 Hch Hn) in E3. cbn [bind] in E3. injection E3 as <-.
          destruct (d_stats d); cbn in H; destruct H as [H|[H|[H|H]]]; discriminate. }
    split; auto. destruct (g_update_untorn s n m a b0 b d Ho G Hnt) as [G'|G']; eapply IH; eauto.
  - pose proof (g_query s n m W RO a o b d Ho Eu G) as G'. split; [|eapply IH; eauto].
    intros (H & _). apply H. rewrite (proj1 (good0_amps _ _ _ _ _ G)), (proj1 (good0_amps _ _ _ _ _ G')). reflexivity.
Qed.

(** A complete update to other amplitudes clears everything. *)
Lemma repair a b k b' d : Good0 s n m a d -> shape n m b -> shape n m b' ->
  d_amps (m_call (UpdateAmps b, k) d) <> Some b' ->
  Good0 s n m b' (m_call (UpdateAmps b', None) (m_call (UpdateAmps b, k) d)).
Proof.
  intros G Sb Sb' Hn.
  destruct (g_update s n m a b k d Sb G) as (_ & [H|[H|(_ & H)]]).
  - apply (g_update s n m a b' None _ Sb' H). reflexivity.
  - apply (g_update s n m b b' None _ Sb' H). reflexivity.
  - destruct H as (dr & c & Hdr & Hdrf & Hc & Hcf & H). set (d1 := m_call (UpdateAmps b, k) d) in *. clearbody d1.
    destruct H as (St & _ & Eb).
    destruct (neq_amps_spec n m b b' Sb Sb') as (ch & Ech & Hch).
    assert (Hb : b <> b') by congruence.
    assert (E : exists d2, update_ctrl_amps b' d1 = Ok d2 /\ Half s n m dr c b' d2 /\ off d2).
    { unfold update_ctrl_amps, compare_amps. rewrite Eb, Ech. cbn [bind]. rewrite (proj2 Hch Hb). cbn [bind].
      eexists; split; [reflexivity|].
      split; [|destruct (d_stats d1); cbn; repeat split].
      split; [|split; [exact Sb'|destruct (d_stats d1); reflexivity]].
      destruct (d_stats d1); destruct St; constructor; auto. }
    destruct E as (d2 & E & Hh & Ho).
    assert (C : m_call (UpdateAmps b', None) d1 = d2) by (apply call_whole; auto). rewrite C.
    apply ghalf_off; auto. exists dr, c; splits; auto; apply Hh.
Qed.

Lemma norm_run st a : s_prop s <> Approx -> shape n m a -> exists k d0 d d1 g,
  session s st a [] = Ok d0 /\ faulty_session s st a [(GetGradient, Some k)] = Ok d /\
  get_fid_err_gradient d = Ok (d1, g) /\ grad_is (xgrad s) s a g /\
  f_gradnorm (d_fidst d1) = f_gradnorm (d_fidst d0).
Proof.
  intros HA Sa. unfold faulty_session.
  destruct (session_good0 s n m W RO st a Sa) as (d0 & E0 & G0). rewrite E0. cbn [bind m_calls].
  destruct (f_grad_cur (d_fidst d0)) eqn:G.
  { destruct (good_gradient s n m W RO a d0 HA G0) as (d1 & g & E & _ & Hg & _).
    exists 0, d0, d0, d1, g; splits; auto. unfold get_fid_err_gradient in E. rewrite G in E.
    destruct (f_grad (d_fidst d0)); try discriminate. cbn in E. now injection E as <- _. }
  destruct (good_gradient s n m W RO a d0 HA G0) as (d1 & g & E & _ & Hg & _).
  assert (C : exists d2, whole (grad_calc (s_fid (d_set d0))) d0 = Ok (d2, g)).
  { rewrite <- whole_gradient in E.
    assert (Hw : whole m_get_fid_err_gradient d0 = ('(d', g) <- whole (grad_calc (s_fid (d_set d0))) d0;; whole (
      _ <~ assign (fun d : dyn A => d <| d_fidst; f_grad := Some g |>);;
      _ <~ assign (fun d : dyn A => d <| d_fidst; f_grad_cur := true |>);;
      _ <~ with_stats (fun st => st <| st_grad := S (st_grad st) |>);;
      _ <~ assign (fun d : dyn A => d <| d_fidst; f_gradnorm := norm2 g |>);;
      mret g) d')).
    { unfold m_get_fid_err_gradient.
      rewrite whole_bind by apply fair_reads. rewrite whole_reads. cbn [bind]. rewrite G.
      rewrite whole_bind by apply fair_reads. rewrite whole_reads. cbn [bind].
      rewrite <- whole_bind by apply fair_calc. reflexivity. }
    rewrite Hw in E.
    destruct (whole (grad_calc (s_fid (d_set d0))) d0) as [[d2 g']|]; try discriminate. cbn [bind] in E.
    cbn in E. injection E as _ <-. eauto. }
  destruct C as (d2 & C). destruct (gradient_cut d0 d2 g G C) as (k & st' & Ek).
  exists k, d0. eexists _, _, g. rewrite Ek. splits; [reflexivity|reflexivity| | |]; [|exact Hg|].
  - unfold get_fid_err_gradient. cbn. reflexivity.
  - rewrite <- (calc_norm _ _ _ _ C). reflexivity.
Qed.
End Torn.
