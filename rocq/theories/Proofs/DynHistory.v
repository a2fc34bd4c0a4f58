(** Histories: every call of every history keeps the invariant of [DynHist]. *)
From Coq Require Import Reals Lra.
From Coquelicot Require Import Complex.
From RecordUpdate Require Import RecordUpdate.
From Verif.Model Require Import Base Dyn.
From Verif.Lib Require Import Lists.
From Verif.Spec Require Import Evolution History.
From Verif.Proofs Require Import DynInv DynRun DynHist.
Local Open Scope nat_scope.

(** *** Counting *)

Definition nb (b : bool) : nat := if b then 0 else 1.
Definition fidflag {A} (d : dyn A) : bool :=
  match s_fid (d_set d) with FUnit => f_pre_cur (d_fidst d) | FTrace => f_fid_cur (d_fidst d) end.

Definition CountOk {A} (d d' : dyn A) : Prop :=
  forall st, d_stats d = Some st -> exists st', d_stats d' = Some st' /\
    st_recompute st' + nb (d_evo_cur d') = st_recompute st + nb (d_evo_cur d) /\
    st_fid st' + nb (fidflag d') = st_fid st + nb (fidflag d) /\
    st_grad st' + nb (f_grad_cur (d_fidst d')) = st_grad st + nb (f_grad_cur (d_fidst d)).

Lemma CountOk_refl {A} (d : dyn A) : CountOk d d.
Proof. intros st H; exists st; splits; auto. Qed.
Lemma CountOk_trans {A} (d1 d2 d3 : dyn A) : CountOk d1 d2 -> CountOk d2 d3 -> CountOk d1 d3.
Proof.
  intros H1 H2 st E. destruct (H1 st E) as (st2 & E2 & A1 & A2 & A3).
  destruct (H2 st2 E2) as (st3 & E3 & B1 & B2 & B3). exists st3; splits; auto; lia.
Qed.

Section Hist.
Context {A : Alg} (s : settings A) (n m : nat) (dr : drift A) (c : ctrls A).
Notation s' := (settled s).
Hypothesis Htau : length (s_tau s) = n.
Hypothesis Hpos : 0 < n.
Hypothesis Hdr : eff_drift s = Some dr.
Hypothesis Hdrf : drift_fits n dr.
Hypothesis Hc : eff_ctrls s = Some c.
Hypothesis Hcf : ctrls_fit n m c.
Hypothesis Hm : s_cache_pg s = true -> 0 < m.
Hypothesis Hdiagc : s_prop s = Diag -> s_class s = Unitary.
Hypothesis Hfr : s_prop s = Frechet -> forall a k j t g cj, slot_at s n m a k j t g cj -> frechet_expm s t g cj.
Hypothesis Haug : s_prop s = AugMat -> forall a k j t g cj, slot_at s n m a k j t g cj -> aug_expm s t g cj.
Hypothesis Hdiag : s_prop s = Diag -> forall a k t g,
  shape n m a -> nth_error (s_tau s) k = Some t -> nth_error (gens_of s a) k = Some g ->
  diag_expm s t g.

Notation Inv := (Inv s n m dr c).
Notation istatic I := (inv_st _ _ _ _ _ _ _ I).
Notation set_eq I := (st_set _ _ _ _ _ _ (istatic I)).

Tactic Notation "evo" constr(a) constr(d) constr(I) simple_intropattern(d1) simple_intropattern(b)
    simple_intropattern(E1) simple_intropattern(I1) simple_intropattern(C1) simple_intropattern(F1)
    simple_intropattern(S1) :=
  destruct (evo_ok s n m dr c Htau Hpos Hdr Hdrf Hc Hcf Hm Hdiagc Hfr Haug Hdiag a d I)
    as (d1 & b & E1 & I1 & C1 & F1 & S1 & _ & _).

Lemma evo_count a d d' b : Inv a d -> compute_evolution d = Ok (d', b) -> CountOk d d' /\ Inv a d'.
Proof.
  intros I E. evo a d I d1 b1 E1 I1 C1 F1 S1. rewrite E1 in E; injection E as <- <-.
  split; auto. intros st Es. rewrite S1. unfold fidflag.
  rewrite (set_eq I1), (set_eq I), F1, C1.
  destruct (d_evo_cur d) eqn:Ec; rewrite Es; cbn; eexists; splits; try reflexivity; cbn; lia.
Qed.

Lemma prenorm_count a d d' v : s_fid s = FUnit -> Inv a d -> get_fidelity_prenorm d = Ok (d', v) -> CountOk d d'.
Proof.
  intros HF I. unfold get_fidelity_prenorm. destruct (f_pre_cur (d_fidst d)) eqn:Ep.
  - intros E. apply bind_inv in E; destruct E as (x & _ & E). injection E as <- <-. apply CountOk_refl.
  - intros E. apply bind_inv in E; destruct E as ([d1 b] & E1 & E).
    destruct (evo_count a d d1 b I E1) as [K I1].
    repeat (apply bind_inv in E; destruct E as (? & _ & E)). injection E as <- <-.
    intros st Es. destruct (K st Es) as (st1 & Es1 & K1 & K2 & K3).
    evo a d I d2 b2 E2 I2 C2 F2 S2. rewrite E2 in E1; injection E1 as -> ->.
    unfold bump_fid; cbn. rewrite Es1; cbn. eexists; splits; [reflexivity|..]; cbn; auto.
    unfold fidflag in *; cbn. rewrite (set_eq I1), (set_eq I), settled_fid, HF in *. cbn.
    rewrite F2, Ep in K2. rewrite Ep. cbn in *; lia.
Qed.

Lemma fidelity_count a d d' v : s_fid s = FUnit -> Inv a d -> get_fidelity d = Ok (d', v) -> CountOk d d'.
Proof.
  intros HF I. unfold get_fidelity. rewrite (set_eq I), settled_fid, HF.
  destruct (f_fid_cur (d_fidst d)) eqn:Ep.
  - intros E. apply bind_inv in E; destruct E as (x & _ & E). injection E as <- <-. apply CountOk_refl.
  - intros E. apply bind_inv in E; destruct E as ([d1 b] & E1 & E).
    injection E as <- <-. pose proof (prenorm_count a d d1 b HF I E1) as K.
    intros st Es. destruct (K st Es) as (st1 & Es1 & K1 & K2 & K3). exists st1; splits; auto.
    unfold fidflag in *; cbn.
    destruct (prenorm_ok s n m dr c Htau Hpos Hdr Hdrf Hc Hcf Hm Hdiagc Hfr Haug Hdiag a d HF I)
      as (d2 & E2 & I2 & _). rewrite E1 in E2; injection E2 as <- ->.
    rewrite (set_eq I2), (set_eq I), settled_fid, HF in *. auto.
Qed.

Lemma fid_err_count a d d' v : Inv a d -> get_fid_err d = Ok (d', v) -> CountOk d d'.
Proof.
  intros I. unfold get_fid_err. rewrite (set_eq I), settled_fid. case_eq (s_fid s); intros HF.
  - intros E. apply bind_inv in E; destruct E as ([d1 f] & E1 & E). injection E as <- <-.
    eapply fidelity_count; eauto.
  - destruct (f_fid_cur (d_fidst d)) eqn:Ep.
    + intros E. apply bind_inv in E; destruct E as (x & _ & E). injection E as <- <-. apply CountOk_refl.
    + intros E. apply bind_inv in E; destruct E as ([d1 b] & E1 & E).
      destruct (evo_count a d d1 b I E1) as [K I1].
      repeat (apply bind_inv in E; destruct E as (? & _ & E)). injection E as <- <-.
      intros st Es. destruct (K st Es) as (st1 & Es1 & K1 & K2 & K3).
      evo a d I d2 b2 E2 I2 C2 F2 S2. rewrite E2 in E1; injection E1 as -> ->.
      unfold bump_fid; cbn. rewrite Es1; cbn. eexists; splits; [reflexivity|..]; cbn; auto.
      unfold fidflag in *; cbn. rewrite (set_eq I1), (set_eq I), settled_fid, HF in *. cbn.
      rewrite F2, Ep in K2. rewrite Ep. cbn in *; lia.
Qed.

(** Gradient entries of a current evolution leave the state alone. *)
Lemma unit_entry_same a d k j : s_fid s = FUnit -> s_prop s <> Approx -> Inv a d -> d_evo_cur d = true ->
  k < n -> j < m -> exists x, unit_grad_entry k j d = Ok (d, x) /\ True.
Proof.
  intros HF HA I C Hk Hj. pose proof (inv_cur _ _ _ _ _ _ _ I C) as Cu. unfold unit_grad_entry.
  pose proof (cur_fwd _ _ _ _ _ _ Cu k ltac:(lia)) as Hf. unfold FwdOk in Hf.
  rewrite (getf_ok _ _ _ Hf); cbn [bind].
  destruct (cur_onto _ _ _ _ _ _ Cu HF (k + 1) ltac:(lia)) as (l & El & En).
  rewrite El; cbn [some_or bind]. rewrite (getf_ok _ _ _ En); cbn [bind].
  destruct (get_prop_grad_ok s n m dr c Htau Hpos Hdr Hdrf Hc Hcf Hm Hdiagc Hfr Haug Hdiag
      a d k j Hk Hj HA (inv_shape _ _ _ _ _ _ _ I) (istatic I) Cu) as (g & -> & Es).
  cbn [bind]. eauto.
Qed.

Lemma trace_entry_same a d k j : s_fid s = FTrace -> s_prop s <> Approx -> Inv a d -> d_evo_cur d = true ->
  k < n -> j < m -> exists x, trace_grad_entry n k j d = Ok (d, x) /\ True.
Proof.
  intros HF HA I C Hk Hj. pose proof (inv_cur _ _ _ _ _ _ _ I C) as Cu. unfold trace_grad_entry.
  rewrite (getf_ok _ _ _ (fwd_last s n m dr c Htau Hpos Hdr Hdrf Hc Hcf Hm Hdiagc Hfr Haug Hdiag
                          a d (inv_shape _ _ _ _ _ _ _ I) Cu)); cbn [bind].
  rewrite (st_target _ _ _ _ _ _ (istatic I)); cbn [some_or bind].
  rewrite (set_eq I), (settled_scale _ HF); cbn [some_or bind].
  pose proof (cur_fwd _ _ _ _ _ _ Cu k ltac:(lia)) as Hf. unfold FwdOk in Hf.
  rewrite (getf_ok _ _ _ Hf); cbn [bind].
  destruct (get_prop_grad_ok s n m dr c Htau Hpos Hdr Hdrf Hc Hcf Hm Hdiagc Hfr Haug Hdiag
      a d k j Hk Hj HA (inv_shape _ _ _ _ _ _ _ I) (istatic I) Cu) as (g & -> & Es).
  cbn [bind].
  destruct (k + 1 <? n) eqn:Ek; [|cbn [bind]; eauto].
  apply Nat.ltb_lt in Ek.
  destruct (cur_onwd _ _ _ _ _ _ Cu HF (k + 1) Ek) as (l & p & El & Ep & Epr).
  rewrite El; cbn [some_or bind]. rewrite (getf_ok _ _ _ Ep); cbn [bind]. eauto.
Qed.

Lemma gradient_count a d d' v : s_prop s <> Approx -> Inv a d -> get_fid_err_gradient d = Ok (d', v) -> CountOk d d'.
Proof.
  intros HA I. unfold get_fid_err_gradient.
  destruct (f_grad_cur (d_fidst d)) eqn:Eg.
  { intros E. apply bind_inv in E; destruct E as (x & _ & E). injection E as <- <-. apply CountOk_refl. }
  set (calc := match s_fid (d_set d) with FUnit => _ | FTrace => _ end).
  assert (Hcalc : forall d1 g, calc = Ok (d1, g) -> CountOk d d1 /\ Inv a d1 /\ f_grad_cur (d_fidst d1) = false).
  { unfold calc. rewrite (set_eq I), settled_fid.
    case_eq (s_fid s); intros HF d1 g.
    - unfold compute_fid_grad. rewrite (num_ctrls_ok s n m dr c Htau Hpos Hdr Hdrf Hc Hcf Hm Hdiagc Hfr Haug Hdiag a (inv_shape _ _ _ _ _ _ _ I) d (istatic I)). cbn [bind].
      replace (n_ts d) with n by (symmetry; eapply n_ts_eq; eauto; apply I).
      evo a d I d2 b E2 I2 C2 F2 S2. rewrite E2; cbn [bind].
      destruct (fill_grad_const n m unit_grad_entry (RtoC 0) d2 (fun k j x => True)) as (gp & -> & L & F & H).
      { intros k j Hk Hj. eapply unit_entry_same; eauto. }
      cbn [bind].
      destruct (fidelity_ok s n m dr c Htau Hpos Hdr Hdrf Hc Hcf Hm Hdiagc Hfr Haug Hdiag a d2 HF I2) as (d3 & E3 & I3 & G3 & _).
      rewrite E3; cbn [bind].
      destruct (prenorm_ok s n m dr c Htau Hpos Hdr Hdrf Hc Hcf Hm Hdiagc Hfr Haug Hdiag a d3 HF I3) as (d4 & E4 & I4 & _ & _ & G4 & _).
      rewrite E4; cbn [bind]. intros [= <- _]. splits; auto.
      + eapply CountOk_trans; [eapply evo_count; eauto|]. eapply CountOk_trans; [eapply fidelity_count; eauto|].
        eapply prenorm_count; eauto.
      + congruence.
    - unfold compute_fid_err_grad. rewrite (num_ctrls_ok s n m dr c Htau Hpos Hdr Hdrf Hc Hcf Hm Hdiagc Hfr Haug Hdiag a (inv_shape _ _ _ _ _ _ _ I) d (istatic I)). cbn [bind].
      replace (n_ts d) with n by (symmetry; eapply n_ts_eq; eauto; apply I).
      evo a d I d2 b E2 I2 C2 F2 S2. rewrite E2; cbn [bind].
      destruct (fill_grad_const n m (trace_grad_entry n) 0%R d2 (fun k j x => True)) as (gp & -> & L & F & H).
      { intros k j Hk Hj. eapply trace_entry_same; eauto. }
      intros [= <- _]. splits; auto; [|congruence]. eapply evo_count; eauto. }
  intros E. apply bind_inv in E; destruct E as ([d1 g] & E1 & E). injection E as <- <-.
  destruct (Hcalc _ _ E1) as (K & I1 & G1).
  intros st Es. destruct (K st Es) as (st1 & Es1 & K1 & K2 & K3).
  unfold bump_grad; cbn. rewrite Es1; cbn. eexists; splits; [reflexivity|..]; cbn; auto.
  rewrite Eg in *. rewrite G1 in K3. cbn in *. lia.
Qed.

(** *** Accessors *)

Ltac acc I := destruct I as [St ? ? Hcur ? ? ? ? ? ? ? ? ? ?]; constructor; auto;
  [destruct St; constructor; auto
  |intros Hc'; destruct (Hcur Hc'); constructor; auto|..]; cbn; intros; congruence.

Lemma dyn_gen_ok a d : Inv a d -> Inv a (fst (get_dyn_gen d)).
Proof. intros I. unfold get_dyn_gen. destruct (d_dg_q d) eqn:E; auto. cbn [fst]. acc I. Qed.
Lemma prop_acc_ok a d : Inv a d -> Inv a (fst (get_prop d)).
Proof. intros I. unfold get_prop. destruct (d_prop_q d) eqn:E; auto. cbn [fst]. acc I. Qed.
Lemma pg_acc_ok a d : Inv a d -> Inv a (fst (get_prop_grads d)).
Proof.
  intros I. unfold get_prop_grads. destruct (d_pg d) eqn:E; auto. destruct (d_pg_q d) eqn:E'; auto.
  cbn [fst]. acc I.
Qed.
Lemma onto_acc_ok a d : Inv a d -> Inv a (fst (get_onto_evo d)).
Proof.
  intros I. unfold get_onto_evo. destruct (d_onto d) eqn:E; auto. destruct (d_onto_q d) eqn:E'; auto.
  cbn [fst]. acc I.
Qed.
Lemma fwd_value a d : Inv a d ->
  match s_dtype (d_set d) with DQobj => d_fwd d | DNdarray => Some (s_initial (d_set d)) :: tl (d_fwd d) end = d_fwd d.
Proof.
  intros I. destruct (s_dtype (d_set d)); auto. rewrite (set_eq I), settled_initial.
  pose proof (st_fwd0 _ _ _ _ _ _ (istatic I)) as H. destruct (d_fwd d); cbn in *; congruence.
Qed.
Lemma fwd_acc_ok a d : Inv a d -> Inv a (fst (get_fwd_evo d)).
Proof.
  intros I. unfold get_fwd_evo. rewrite (fwd_value a d I).
  destruct (d_fwd_q d) eqn:E; auto. cbn [fst]. acc I.
Qed.
Lemma onwd_acc_ok a d : Inv a d -> Inv a (fst (get_onwd_evo d)).
Proof.
  intros I. unfold get_onwd_evo. rewrite (set_eq I), settled_dtype.
  destruct (d_onwd d) eqn:E; auto. destruct (d_onwd_q d) eqn:E'; auto.
  cbn [fst]. case_eq (s_dtype s); intros Ed; acc I.
Qed.

(** *** Any call, any history *)

Lemma step_ok a d o : call_ok s n m o -> Inv a d ->
  exists d', step o d = Ok d' /\ Inv (latest a [o]) d' /\
    (forall st, d_stats d = Some st -> exists st', d_stats d' = Some st' /\
      st_recompute st' + nb (d_evo_cur d') <= st_recompute st + nb (d_evo_cur d) + changes a [o] /\
      st_fid st' + nb (fidflag d') <= st_fid st + nb (fidflag d) + changes a [o] /\
      st_grad st' + nb (f_grad_cur (d_fidst d')) <= st_grad st + nb (f_grad_cur (d_fidst d)) + changes a [o]).
Proof.
  intros Ho I.
  assert (Q : forall d', CountOk d d' -> forall st, d_stats d = Some st -> exists st', d_stats d' = Some st' /\
      st_recompute st' + nb (d_evo_cur d') <= st_recompute st + nb (d_evo_cur d) + 0 /\
      st_fid st' + nb (fidflag d') <= st_fid st + nb (fidflag d) + 0 /\
      st_grad st' + nb (f_grad_cur (d_fidst d')) <= st_grad st + nb (f_grad_cur (d_fidst d)) + 0).
  { intros d' K st Es. destruct (K st Es) as (st' & E' & K1 & K2 & K3). exists st'; splits; auto; lia. }
  destruct o as [b| | | | | | | | | | ]; cbn [step latest changes]; cbn [call_ok] in Ho.
  - destruct (update_ok s n m dr c a b d Ho I) as (d' & E & I' & H1 & H2 & H3). exists d'; splits; auto.
    unfold update_ctrl_amps, compare_amps in E. rewrite (inv_amps _ _ _ _ _ _ _ I) in E.
    apply bind_inv in E; destruct E as ([d1 bb] & E & E'); injection E' as ->.
    intros st Es.
    destruct (list_eq_dec (list_eq_dec Req_EM_T) a b) as [Eab|Nab].
    + destruct (H1 Eab) as [H4 H5]. destruct (neq_amps_spec n m a b (inv_shape _ _ _ _ _ _ _ I) Ho) as (ch & Ech & Hch).
      rewrite Ech in E; cbn [bind] in E.
      destruct (any (map any ch)) eqn:Ea; [exfalso; apply Hch; auto|].
      cbn [bind] in E. injection E as E _. rewrite Es in E. rewrite H4, H5.
      unfold fidflag. rewrite (set_eq I'), (set_eq I), H5. rewrite <- E; cbn. eexists; splits; [reflexivity|..]; cbn; lia.
    + destruct (H2 Nab) as (H4 & H5 & H6). destruct (neq_amps_spec n m a b (inv_shape _ _ _ _ _ _ _ I) Ho) as (ch & Ech & Hch).
      rewrite Ech in E; cbn [bind] in E.
      assert (Ea : any (map any ch) = true) by (apply Hch; auto). rewrite Ea in E.
      cbn [bind] in E. injection E as E _. rewrite Es in E. rewrite H4, H6.
      assert (H7 : nb (fidflag d') <= 1) by (destruct (fidflag d'); cbn; lia).
      assert (H8 : st_recompute st + nb false <= st_recompute st + nb (d_evo_cur d) + (1 + 0)) by (cbn; lia).
      rewrite <- E in *; cbn in *. eexists; splits; [reflexivity|..]; cbn in *; lia.
  - evo a d I d1 b1 E1 I1 C1 F1 S1. unfold lift. rewrite E1; cbn [bind]. exists d1; splits; auto.
    apply Q. eapply evo_count; eauto.
  - destruct (fid_err_ok s n m dr c Htau Hpos Hdr Hdrf Hc Hcf Hm Hdiagc Hfr Haug Hdiag a d I) as (d1 & E1 & I1).
    unfold lift. rewrite E1; cbn [bind]. exists d1; splits; auto. apply Q. eapply fid_err_count; eauto.
  - destruct (fidelity_ok s n m dr c Htau Hpos Hdr Hdrf Hc Hcf Hm Hdiagc Hfr Haug Hdiag a d Ho I) as (d1 & E1 & I1 & _).
    unfold lift. rewrite E1; cbn [bind]. exists d1; splits; auto. apply Q. eapply fidelity_count; eauto.
  - destruct (gradient_ok s n m dr c Htau Hpos Hdr Hdrf Hc Hcf Hm Hdiagc Hfr Haug Hdiag a d Ho I) as (d1 & g & E1 & I1 & _).
    unfold lift. rewrite E1; cbn [bind]. exists d1; splits; auto. apply Q. eapply gradient_count; eauto.
  - eexists; splits; [reflexivity|apply dyn_gen_ok; auto|]. apply Q.
    unfold get_dyn_gen. destruct (d_dg_q d); [apply CountOk_refl|]. intros st Es; exists st; splits; auto.
  - eexists; splits; [reflexivity|apply prop_acc_ok; auto|]. apply Q.
    unfold get_prop. destruct (d_prop_q d); [apply CountOk_refl|]. intros st Es; exists st; splits; auto.
  - eexists; splits; [reflexivity|apply pg_acc_ok; auto|]. apply Q.
    unfold get_prop_grads. destruct (d_pg d), (d_pg_q d); try apply CountOk_refl. intros st Es; exists st; splits; auto.
  - eexists; splits; [reflexivity|apply fwd_acc_ok; auto|]. apply Q.
    unfold get_fwd_evo. destruct (d_fwd_q d); [apply CountOk_refl|]. intros st Es; exists st; splits; auto.
  - eexists; splits; [reflexivity|apply onwd_acc_ok; auto|]. apply Q.
    unfold get_onwd_evo. destruct (d_onwd d), (d_onwd_q d); try apply CountOk_refl. intros st Es; exists st; splits; auto.
  - eexists; splits; [reflexivity|apply onto_acc_ok; auto|]. apply Q.
    unfold get_onto_evo. destruct (d_onto d), (d_onto_q d); try apply CountOk_refl. intros st Es; exists st; splits; auto.
Qed.

Lemma latest_cons a o ops : latest a (o :: ops) = latest (latest a [o]) ops.
Proof. destruct o; reflexivity. Qed.
Lemma changes_cons a o ops : changes a (o :: ops) = changes a [o] + changes (latest a [o]) ops.
Proof. destruct o; cbn [changes latest]; lia. Qed.

Lemma run_ok ops : forall a d, Forall (call_ok s n m) ops -> Inv a d ->
  exists d', run ops d = Ok d' /\ Inv (latest a ops) d' /\
    (forall st, d_stats d = Some st -> exists st', d_stats d' = Some st' /\
      st_recompute st' + nb (d_evo_cur d') <= st_recompute st + nb (d_evo_cur d) + changes a ops /\
      st_fid st' + nb (fidflag d') <= st_fid st + nb (fidflag d) + changes a ops /\
      st_grad st' + nb (f_grad_cur (d_fidst d')) <= st_grad st + nb (f_grad_cur (d_fidst d)) + changes a ops).
Proof.
  induction ops as [|o ops IH]; intros a d F I.
  - exists d; cbn [run latest changes]; splits; auto. intros st Es; exists st; splits; auto; lia.
  - pose proof (Forall_inv F) as Ho. pose proof (Forall_inv_tail F) as F'. cbn [run].
    destruct (step_ok a d o Ho I) as (d1 & -> & I1 & K1). cbn [bind].
    destruct (IH _ _ F' I1) as (d2 & -> & I2 & K2). exists d2.
    rewrite latest_cons, changes_cons. splits; auto.
    intros st Es. destruct (K1 st Es) as (st1 & Es1 & A1 & A2 & A3).
    destruct (K2 st1 Es1) as (st2 & Es2 & B1 & B2 & B3). exists st2; splits; auto; lia.
Qed.

End Hist.

Lemma new_reinit {A : Alg} (s : settings A) n m c st : reinit_ok s n m c (new_dyn s st).
Proof. constructor; cbn; auto; try congruence. Qed.

(** *** Packaged for users of the lemmas *)
Section Pack.
Context {A : Alg} (s : settings A) (n m : nat).
Hypothesis W : well_posed s n m.
Hypothesis RO : routines_ok s n m.

Definition Good (a : amps) (d : dyn A) : Prop :=
  exists dr c, eff_drift s = Some dr /\ drift_fits n dr /\ eff_ctrls s = Some c /\ ctrls_fit n m c /\
               Inv s n m dr c a d.

Lemma session_ok st a ops : shape n m a -> Forall (call_ok s n m) ops ->
  exists d, session s st a ops = Ok d /\ Good (latest a ops) d /\
    (st = true -> exists x, d_stats d = Some x /\
       st_recompute x + nb (d_evo_cur d) <= 1 + changes a ops /\
       st_fid x + nb (fidflag d) <= 1 + changes a ops /\
       st_grad x + nb (f_grad_cur (d_fidst d)) <= 1 + changes a ops).
Proof.
  intros Ha F. destruct W as [Htau Hpos (dr & Hdr & Hdrf) (c & Hc & Hcf) Hm Hdiagc].
  destruct RO as (Hfr & Haug & Hdiag). unfold session.
  destruct (init_ok s n m dr c Htau Hpos Hdr Hdrf Hc Hcf Hm Hdiagc Hfr Haug Hdiag a (new_dyn s st) eq_refl Ha (new_reinit s n m c st))
    as (d0 & E0 & I0 & C0 & S0). rewrite E0; cbn [bind].
  destruct (run_ok s n m dr c Htau Hpos Hdr Hdrf Hc Hcf Hm Hdiagc Hfr Haug Hdiag ops a d0 F I0)
    as (d & -> & I & K). exists d; splits; auto.
  - exists dr, c; splits; auto.
  - intros ->. 
    assert (St0 : exists x, d_stats d0 = Some x /\ st_recompute x = 0 /\ st_fid x = 0 /\ st_grad x = 0).
    { destruct (S0 _ eq_refl) as (x & Ex & Q). exists x; split; auto. }
    destruct St0 as (x0 & Ex0 & Q1 & Q2 & Q3). destruct (K x0 Ex0) as (x & Ex & K1 & K2 & K3).
    exists x; splits; auto.
    + rewrite Q1 in K1. destruct (d_evo_cur d0); cbn [nb] in K1; lia.
    + rewrite Q2 in K2. destruct (fidflag d0); cbn [nb] in K2; lia.
    + rewrite Q3 in K3. destruct (f_grad_cur (d_fidst d0)); cbn [nb] in K3; lia.
Qed.

(** *** What can be observed in a good state *)

Lemma good_evo a d : Good a d ->
  exists d' b, compute_evolution d = Ok (d', b) /\ Good a d' /\ d_evo_cur d' = true /\
    b = negb (d_evo_cur d) /\ (d_evo_cur d = true -> d' = d).
Proof.
  intros (dr & c & Hdr & Hdrf & Hc & Hcf & I).
  destruct W as [Htau Hpos _ _ Hm Hdiagc]. destruct RO as (Hfr & Haug & Hdiag).
  destruct (evo_ok s n m dr c Htau Hpos Hdr Hdrf Hc Hcf Hm Hdiagc Hfr Haug Hdiag a d I)
    as (d' & b & E & I' & C' & _ & _ & B & S). exists d', b; splits; auto. exists dr, c; splits; auto.
Qed.

Lemma good_err a d : Good a d -> exists d', get_fid_err d = Ok (d', fid_err_of s a) /\ Good a d'.
Proof.
  intros (dr & c & Hdr & Hdrf & Hc & Hcf & I).
  destruct W as [Htau Hpos _ _ Hm Hdiagc]. destruct RO as (Hfr & Haug & Hdiag).
  destruct (fid_err_ok s n m dr c Htau Hpos Hdr Hdrf Hc Hcf Hm Hdiagc Hfr Haug Hdiag a d I)
    as (d' & E & I'). exists d'; split; auto. exists dr, c; splits; auto.
Qed.

Lemma good_fidelity a d : s_fid s = FUnit -> Good a d ->
  exists d', get_fidelity d = Ok (d', fidelity_of s a) /\ Good a d'.
Proof.
  intros HF (dr & c & Hdr & Hdrf & Hc & Hcf & I).
  destruct W as [Htau Hpos _ _ Hm Hdiagc]. destruct RO as (Hfr & Haug & Hdiag).
  destruct (fidelity_ok s n m dr c Htau Hpos Hdr Hdrf Hc Hcf Hm Hdiagc Hfr Haug Hdiag a d HF I)
    as (d' & E & I' & _). exists d'; split; auto. exists dr, c; splits; auto.
Qed.

Lemma good_gradient a d : s_prop s <> Approx -> Good a d ->
  exists d' g, get_fid_err_gradient d = Ok (d', g) /\ Good a d' /\ grad_is (xgrad s) s a g /\
    f_gradnorm (d_fidst d') = norm2 g.
Proof.
  intros HA (dr & c & Hdr & Hdrf & Hc & Hcf & I).
  destruct W as [Htau Hpos _ _ Hm Hdiagc]. destruct RO as (Hfr & Haug & Hdiag).
  destruct (gradient_ok s n m dr c Htau Hpos Hdr Hdrf Hc Hcf Hm Hdiagc Hfr Haug Hdiag a d HA I)
    as (d' & g & E & I' & G & N). exists d', g; splits; auto. exists dr, c; splits; auto.
Qed.

Lemma good_lens a d : Good a d -> length (props_of s a) = n /\ length (gens_of s a) = n.
Proof.
  intros (dr & c & Hdr & Hdrf & Hc & Hcf & I).
  destruct W as [Htau Hpos _ _ Hm Hdiagc]. destruct RO as (Hfr & Haug & Hdiag).
  pose proof (inv_shape _ _ _ _ _ _ _ I) as Ha. split.
  - apply (props_length s n m dr c); auto.
  - apply (gens_length s n m dr c); auto.
Qed.

Lemma good_dyn_gen a d : Good a d -> d_evo_cur d = true ->
  snd (get_dyn_gen d) = map Some (gens_of s a).
Proof.
  intros G C. destruct (good_lens a d G) as [_ L].
  destruct G as (dr & c & Hdr & Hdrf & Hc & Hcf & I).
  assert (E : snd (get_dyn_gen d) = d_dg d).
  { unfold get_dyn_gen. destruct (d_dg_q d) eqn:E; auto. cbn. eapply inv_dgq; eauto. }
  rewrite E. pose proof (st_dg _ _ _ _ _ _ (inv_st _ _ _ _ _ _ _ I)) as L'.
  apply list_ext; [rewrite map_length; congruence|]. intros k Hk.
  rewrite nth_error_map. destruct (nth_ex (gens_of s a) k) as (g & Eg); [lia|]. rewrite Eg; cbn.
  destruct (cur_gen _ _ _ _ _ _ (inv_cur _ _ _ _ _ _ _ I C) k ltac:(lia) g Eg); auto.
Qed.

Lemma good_prop a d : Good a d -> d_evo_cur d = true ->
  snd (get_prop d) = map Some (props_of s a).
Proof.
  intros G C. destruct (good_lens a d G) as [L _].
  destruct G as (dr & c & Hdr & Hdrf & Hc & Hcf & I).
  assert (E : snd (get_prop d) = d_prop d).
  { unfold get_prop. destruct (d_prop_q d) eqn:E; auto. cbn. eapply inv_propq; eauto. }
  rewrite E. pose proof (st_prop _ _ _ _ _ _ (inv_st _ _ _ _ _ _ _ I)) as L'.
  apply list_ext; [rewrite map_length; congruence|]. intros k Hk.
  rewrite nth_error_map. apply (cur_prop _ _ _ _ _ _ (inv_cur _ _ _ _ _ _ _ I C) k ltac:(lia)).
Qed.

Lemma nth_seq_map {X} (f : nat -> X) i p k : k < p -> nth_error (map f (seq i p)) k = Some (f (i + k)).
Proof.
  revert i k; induction p; intros i [|k] H; cbn; try lia.
  - f_equal; f_equal; lia.
  - rewrite IHp by lia. f_equal; f_equal; lia.
Qed.

Lemma good_fwd a d : Good a d -> d_evo_cur d = true ->
  snd (get_fwd_evo d) = map (fun k => Some (evolve (firstn k (props_of s a)) (s_initial s))) (seq 0 (S n)).
Proof.
  intros G C. destruct G as (dr & c & Hdr & Hdrf & Hc & Hcf & I).
  assert (E : snd (get_fwd_evo d) = d_fwd d).
  { unfold get_fwd_evo. rewrite (fwd_value s n m dr c a d I). destruct (d_fwd_q d) eqn:E; auto. cbn. eapply inv_fwdq; eauto. }
  rewrite E. pose proof (st_fwd _ _ _ _ _ _ (inv_st _ _ _ _ _ _ _ I)) as L'.
  apply list_ext; [rewrite map_length, seq_length; congruence|]. intros k Hk.
  rewrite nth_seq_map by lia. apply (cur_fwd _ _ _ _ _ _ (inv_cur _ _ _ _ _ _ _ I C) k ltac:(lia)).
Qed.

Lemma good_onto a d : s_fid s = FUnit -> Good a d -> d_evo_cur d = true ->
  snd (get_onto_evo d) = Some (map (fun k => Some (devolve (undo_target s) (skipn k (props_of s a)))) (seq 0 (S n))).
Proof.
  intros HF G C. destruct G as (dr & c & Hdr & Hdrf & Hc & Hcf & I).
  destruct (st_onto _ _ _ _ _ _ (inv_st _ _ _ _ _ _ _ I) HF) as (l & El & L & _).
  assert (E : snd (get_onto_evo d) = Some l).
  { unfold get_onto_evo. rewrite El. destruct (d_onto_q d) eqn:E; auto. cbn.
    rewrite <- El. symmetry. eapply inv_ontoq; eauto. }
  rewrite E. f_equal.
  apply list_ext; [rewrite map_length, seq_length; congruence|]. intros k Hk.
  rewrite nth_seq_map by lia.
  destruct (cur_onto _ _ _ _ _ _ (inv_cur _ _ _ _ _ _ _ I C) HF k ltac:(lia)) as (l' & El' & En).
  rewrite El in El'; injection El' as <-. auto.
Qed.

Lemma good_onwd a d : s_fid s = FTrace -> s_dtype s = DNdarray -> Good a d -> d_evo_cur d = true ->
  snd (get_onwd_evo d) = Some (map (fun k => product (skipn k (props_of s a))) (seq 0 n)).
Proof.
  intros HF HN G C. destruct G as (dr & c & Hdr & Hdrf & Hc & Hcf & I).
  destruct (st_onwd _ _ _ _ _ _ (inv_st _ _ _ _ _ _ _ I) HF) as (l & El & L).
  assert (E : snd (get_onwd_evo d) = Some l).
  { unfold get_onwd_evo. rewrite El. destruct (d_onwd_q d) eqn:E; auto.
    - cbn. rewrite <- El. symmetry. eapply inv_onwdq; eauto.
    - rewrite (st_set _ _ _ _ _ _ (inv_st _ _ _ _ _ _ _ I)), settled_dtype, HN; auto. }
  rewrite E. f_equal.
  apply list_ext; [rewrite map_length, seq_length; congruence|]. intros k Hk.
  rewrite nth_seq_map by lia.
  destruct (cur_onwd _ _ _ _ _ _ (inv_cur _ _ _ _ _ _ _ I C) HF k ltac:(lia)) as (l' & p & El' & En & Ep).
  rewrite El in El'; injection El' as <-. cbn. rewrite En, Ep; auto.
Qed.

(** The internal onward list, also behind Qobj operators. *)
Lemma good_onwd_internal a d : s_fid s = FTrace -> Good a d -> d_evo_cur d = true ->
  d_onwd d = Some (map (fun k => product (skipn k (props_of s a))) (seq 0 n)).
Proof.
  intros HF G C. destruct G as (dr & c & Hdr & Hdrf & Hc & Hcf & I).
  destruct (st_onwd _ _ _ _ _ _ (inv_st _ _ _ _ _ _ _ I) HF) as (l & El & L).
  rewrite El. f_equal.
  apply list_ext; [rewrite map_length, seq_length; congruence|]. intros k Hk.
  rewrite nth_seq_map by lia.
  destruct (cur_onwd _ _ _ _ _ _ (inv_cur _ _ _ _ _ _ _ I C) HF k ltac:(lia)) as (l' & p & El' & En & Ep).
  rewrite El in El'; injection El' as <-. cbn. rewrite En, Ep; auto.
Qed.

Lemma good_pg a d k j : grad_exact (s_prop s) && s_cache_pg s = true -> Good a d -> d_evo_cur d = true ->
  k < n -> j < m ->
  exists pg row g, snd (get_prop_grads d) = Some pg /\ nth_error pg k = Some row /\
    nth_error row j = Some (Some g) /\ dslot (xgrad s) s a k j = Some g.
Proof.
  intros He G C Hk Hj. destruct G as (dr & c & Hdr & Hdrf & Hc & Hcf & I).
  destruct W as [Htau Hpos _ _ Hm Hdiagc]. destruct RO as (Hfr & Haug & Hdiag).
  destruct (slot s n m dr c Htau Hpos Hdr Hdrf Hc Hcf Hm Hdiagc Hfr Haug Hdiag a (inv_shape _ _ _ _ _ _ _ I) k Hk)
    as (d0 & row & cs & t & g & E0 & E1 & E2 & E3 & L1 & L2 & _ & Eg & Ep).
  destruct (nth_ex cs j) as (cj & Ecj); [lia|].
  destruct (cur_pg _ _ _ _ _ _ (inv_cur _ _ _ _ _ _ _ I C) He k j Hk Hj t g cs cj E3 Eg E2 Ecj) as (pg & rw & Q1 & Q2 & Q3).
  exists pg, rw, (xgrad s t g cj). splits; auto.
  - unfold get_prop_grads. rewrite Q1. destruct (d_pg_q d) eqn:Eq; auto. cbn.
    rewrite <- Q1. symmetry. eapply inv_pgq; eauto.
  - unfold dslot. rewrite Hc, E3, Eg, Htau, E2, Ecj. reflexivity.
Qed.

End Pack.
