(** Invariants over histories of calls. *)
From Coq Require Import Reals Lra.
From Coquelicot Require Import Complex.
From RecordUpdate Require Import RecordUpdate.
From Verif.Model Require Import Base Dyn.
From Verif.Lib Require Import Lists.
From Verif.Spec Require Import Evolution History.
From Verif.Proofs Require Import DynInv DynRun.
Local Open Scope nat_scope.

(** Filling an array with a body that leaves the state alone. *)
Lemma fill_grad_const {A : Alg} {X} n m (f : nat -> nat -> dyn A -> Res (dyn A * X)) zero d
  (Q : nat -> nat -> X -> Prop) :
  (forall k j, k < n -> j < m -> exists x, f k j d = Ok (d, x) /\ Q k j x) ->
  exists g, fill_grad n m f zero d = Ok (d, g) /\ length g = n /\
    Forall (fun r => length r = m) g /\
    forall k j, k < n -> j < m -> exists row x, nth_error g k = Some row /\ nth_error row j = Some x /\ Q k j x.
Proof.
  intros Hf. unfold fill_grad.
  set (shp := fun g : list (list X) => length g = n /\ Forall (fun r => length r = m) g).
  set (ent := fun (g : list (list X)) k j => exists row x, nth_error g k = Some row /\ nth_error row j = Some x /\ Q k j x).
  destruct (for_range (fun j (p : dyn A * list (list X)) => fst p = d /\ shp (snd p) /\
      forall k j', k < n -> j' < j -> ent (snd p) k j')
    (fun j s => for_each (range n)
       (fun k '(d, g) =>
          '(d, v) <- f k j d;; row <- get g k;; row' <- set row j v;; g' <- set g k row';;
          Ok (d, g')) s) m (d, repeat (repeat zero m) n)) as ([d' g] & E & H).
  - cbn. splits; auto; [|intros; lia]. split; [apply repeat_length|].
    apply Forall_forall; intros r Hr; apply repeat_spec in Hr; subst; apply repeat_length.
  - intros j [d1 g1] Hj (E1 & S1 & N1); cbn [fst snd] in *; subst d1.
    match goal with |- context [for_each (range n) ?b _] => set (body := b) end.
    destruct (for_range (fun k (p : dyn A * list (list X)) => fst p = d /\ shp (snd p) /\
      (forall k j', k < n -> j' < j -> ent (snd p) k j') /\ (forall k', k' < k -> ent (snd p) k' j))
      body n (d, g1)) as ([d' g] & E & H).
    + cbn. splits; auto. intros; lia.
    + intros k [d2 g2] Hk (E2 & (L2 & F2) & N2 & M2); cbn [fst snd] in *; subst d2. unfold body.
      destruct (Hf k j Hk Hj) as (x & -> & Hx). cbn [bind].
      destruct (nth_ex g2 k) as (row & Er); [lia|].
      assert (Lr : length row = m) by (rewrite Forall_forall in F2; apply F2; eapply nth_error_In; eauto).
      rewrite (get_ok _ _ _ Er); cbn [bind]. rewrite set_ok by lia; cbn [bind].
      rewrite set_ok by lia; cbn [bind]. eexists; split; [reflexivity|]. cbn. splits; auto.
      * split; [now rewrite upd_length|]. apply Forall_upd; auto. now rewrite upd_length.
      * intros k' j' Hk' Hj'. destruct (N2 k' j' Hk' Hj') as (row' & x' & Q1 & Q2 & Q3).
        destruct (Nat.eq_dec k' k) as [->|].
        -- rewrite Er in Q1; injection Q1 as <-. exists (upd row j x), x'.
           rewrite nth_upd_eq by lia. rewrite nth_upd_neq by lia. auto.
        -- exists row', x'. rewrite nth_upd_neq by auto. auto.
      * intros k' Hk'. destruct (Nat.eq_dec k' k) as [->|].
        -- exists (upd row j x), x. rewrite nth_upd_eq by lia. rewrite nth_upd_eq by lia. auto.
        -- destruct (M2 k' ltac:(lia)) as (row' & x' & Q1 & Q2 & Q3). exists row', x'.
           rewrite nth_upd_neq by auto. auto.
    + exists (d', g); split; auto. destruct H as (H1 & H2 & H3 & H4); cbn [fst snd] in *.
      splits; auto. intros k j' Hk Hj'. destruct (Nat.eq_dec j' j) as [->|]; [auto|]. apply H3; auto; lia.
  - destruct H as (H1 & (H2 & H2') & H3); cbn [fst snd] in *; subst d'.
    exists g; splits; auto.
Qed.

Section Hist.
Context {A : Alg} (s : settings A) (n m : nat) (dr : drift A) (c : ctrls A).
Notation Op := (Op A).
Notation s' := (settled s).

Hypothesis Htau : length (s_tau s) = n.
Hypothesis Hpos : 0 < n.
Hypothesis Hdr : eff_drift s = Some dr.
Hypothesis Hdrf : drift_fits n dr.
Hypothesis Hc : eff_ctrls s = Some c.
Hypothesis Hcf : ctrls_fit n m c.
Hypothesis Hm : s_cache_pg s = true -> 0 < m.
Hypothesis Hdiagc : s_prop s = Diag -> s_class s = Unitary.
Hypothesis Hfr : s_prop s = Frechet -> forall a k j t g cj, slot_at s n m a k j t g cj -> frechet_expm s t g cj.
Hypothesis Haug : s_prop s = AugMat -> forall a k j t g cj, slot_at s n m a k j t g cj -> aug_expm s t g cj.
Hypothesis Hdiag : s_prop s = Diag -> forall a k t g,
  shape n m a -> nth_error (s_tau s) k = Some t -> nth_error (gens_of s a) k = Some g ->
  diag_expm s t g.

Notation Static := (Static s n m dr c).
Notation Cur := (Cur s n m c).
Notation xgrad := (xgrad s).

Record Inv (a : amps) (d : dyn A) : Prop := {
  inv_st : Static d;
  inv_shape : shape n m a;
  inv_amps : d_amps d = Some a;
  inv_cur : d_evo_cur d = true -> Cur a d;
  inv_pre : f_pre_cur (d_fidst d) = true -> f_prenorm (d_fidst d) = Some (overlap s a);
  inv_fid : s_fid s = FUnit -> f_fid_cur (d_fidst d) = true -> f_fidelity (d_fidst d) = Some (fidelity_of s a);
  inv_err : s_fid s = FTrace -> f_fid_cur (d_fidst d) = true -> f_fid_err (d_fidst d) = Some (trace_dist s a);
  inv_grad : f_grad_cur (d_fidst d) = true -> s_prop s <> Approx /\
               exists g, f_grad (d_fidst d) = Some g /\ f_gradnorm (d_fidst d) = norm2 g /\ grad_is xgrad s a g;
  inv_dgq : d_evo_cur d = true -> forall l, d_dg_q d = Some l -> l = d_dg d;
  inv_propq : d_evo_cur d = true -> forall l, d_prop_q d = Some l -> l = d_prop d;
  inv_pgq : d_evo_cur d = true -> forall l, d_pg_q d = Some l -> d_pg d = Some l;
  inv_fwdq : d_evo_cur d = true -> forall l, d_fwd_q d = Some l -> l = d_fwd d;
  inv_onwdq : d_evo_cur d = true -> forall l, d_onwd_q d = Some l ->
                s_fid s = FTrace -> s_dtype s = DNdarray -> d_onwd d = Some l;
  inv_ontoq : d_evo_cur d = true -> forall l, d_onto_q d = Some l ->
                s_fid s = FUnit -> d_onto d = Some l;
}.

Ltac sect := eauto 2.

(** *** Evolution *)

Lemma evo_ok a d : Inv a d ->
  exists d' b, compute_evolution d = Ok (d', b) /\ Inv a d' /\ d_evo_cur d' = true /\
    d_fidst d' = d_fidst d /\
    d_stats d' = (if d_evo_cur d then d_stats d else bump_rec (d_stats d)) /\
    b = negb (d_evo_cur d) /\ (d_evo_cur d = true -> d' = d).
Proof.
  intros I. unfold compute_evolution.
  destruct (d_evo_cur d) eqn:Ec.
  - exists d, false; splits; auto.
  - destruct (recompute_ok s n m dr c Htau Hpos Hdr Hdrf Hc Hcf Hm Hdiagc Hfr Haug Hdiag a
                (inv_shape _ _ I) d (inv_st _ _ I) (inv_amps _ _ I))
      as (d' & -> & St & Cu & Q1 & Q2 & Q3 & Q4 & Q5 & Q6 & Q7 & Q8 & Q9 & Q10 & Q11).
    cbn [bind]. eexists _, true; split; [reflexivity|].
    splits; auto; try congruence.
    destruct I; constructor; cbn; rewrite ?Q3; auto; try congruence.
    + destruct St; constructor; auto.
    + intros _. destruct Cu; constructor; auto.
Qed.

Lemma n_ts_eq d : Static d -> n_ts d = n.
Proof. intros St; unfold n_ts; rewrite (st_set _ _ _ _ _ _ St), settled_tau; auto. Qed.

Lemma fwd_last a d : shape n m a -> Cur a d -> nth_error (d_fwd d) n = Some (Some (final_of s a)).
Proof.
  intros Ha Cu. pose proof (cur_fwd _ _ _ _ _ _ Cu n (le_n _)) as H. unfold FwdOk in H.
  rewrite firstn_all2 in H; auto.
  rewrite (props_length s n m dr c); auto.
Qed.

(** Updating the fidelity record only. *)
Lemma Inv_fid a d d' :
  Inv a d -> Static d' -> d_amps d' = d_amps d -> d_evo_cur d' = d_evo_cur d ->
  d_dg d' = d_dg d -> d_pdg d' = d_pdg d -> d_prop d' = d_prop d -> d_pg d' = d_pg d ->
  d_fwd d' = d_fwd d -> d_onwd d' = d_onwd d -> d_onto d' = d_onto d -> d_dcur d' = d_dcur d ->
  d_peig d' = d_peig d -> d_evec d' = d_evec d -> d_fac d' = d_fac d -> d_eadj d' = d_eadj d ->
  d_dg_q d' = d_dg_q d -> d_prop_q d' = d_prop_q d -> d_pg_q d' = d_pg_q d ->
  d_fwd_q d' = d_fwd_q d -> d_onwd_q d' = d_onwd_q d -> d_onto_q d' = d_onto_q d ->
  (f_pre_cur (d_fidst d') = true -> f_prenorm (d_fidst d') = Some (overlap s a)) ->
  (s_fid s = FUnit -> f_fid_cur (d_fidst d') = true -> f_fidelity (d_fidst d') = Some (fidelity_of s a)) ->
  (s_fid s = FTrace -> f_fid_cur (d_fidst d') = true -> f_fid_err (d_fidst d') = Some (trace_dist s a)) ->
  (f_grad_cur (d_fidst d') = true -> s_prop s <> Approx /\
               exists g, f_grad (d_fidst d') = Some g /\ f_gradnorm (d_fidst d') = norm2 g /\ grad_is xgrad s a g) ->
  Inv a d'.
Proof.
  intros [] St' E1 E2 E3 E4 E5 E6 E7 E8 E9 E10 E11 E12 E13 E14 E15 E16 E17 E18 E19 E20 X1 X2 X3 X4.
  constructor; rewrite ?E1, ?E2, ?E3, ?E5, ?E6, ?E7, ?E8, ?E9, ?E15, ?E16, ?E17, ?E18, ?E19, ?E20; auto.
  intros H. destruct (inv_cur0 H). constructor.
  - intros i Hi; generalize (cur_gen i Hi); unfold GenOk; rewrite E3, E4; auto.
  - intros HD i Hi; generalize (cur_dec HD i Hi); unfold DecOk; rewrite E10, E11, E12, E13, E14; auto.
  - intros i Hi; generalize (cur_prop i Hi); unfold PropOk; rewrite E5; auto.
  - intros HE i j Hi Hj; generalize (cur_pg HE i j Hi Hj); unfold PgOk; rewrite E6; auto.
  - intros i Hi; generalize (cur_fwd i Hi); unfold FwdOk; rewrite E7; auto.
  - intros HE i Hi; generalize (cur_onwd HE i Hi); unfold OnwdOk; rewrite E8; auto.
  - intros HE i Hi; generalize (cur_onto HE i Hi); unfold OntoOk; rewrite E9; auto.
Qed.

Lemma Static_fid d f st : Static d -> f_dimnorm f = f_dimnorm (d_fidst d) ->
  Static (d <| d_fidst := f |> <| d_stats := st |>).
Proof. intros [] E; constructor; cbn; auto. rewrite E; auto. Qed.

Lemma Inv_fid' a d f st :
  Inv a d -> f_dimnorm f = f_dimnorm (d_fidst d) ->
  (f_pre_cur f = true -> f_prenorm f = Some (overlap s a)) ->
  (s_fid s = FUnit -> f_fid_cur f = true -> f_fidelity f = Some (fidelity_of s a)) ->
  (s_fid s = FTrace -> f_fid_cur f = true -> f_fid_err f = Some (trace_dist s a)) ->
  (f_grad_cur f = true -> s_prop s <> Approx /\
               exists g, f_grad f = Some g /\ f_gradnorm f = norm2 g /\ grad_is xgrad s a g) ->
  Inv a (d <| d_fidst := f |> <| d_stats := st |>).
Proof.
  intros I E X1 X2 X3 X4. eapply (Inv_fid a d); eauto.
  apply Static_fid; auto. apply I.
Qed.

(** *** Fidelity *)

Lemma prenorm_ok a d : s_fid s = FUnit -> Inv a d ->
  exists d', get_fidelity_prenorm d = Ok (d', overlap s a) /\ Inv a d' /\
    f_fid_cur (d_fidst d') = f_fid_cur (d_fidst d) /\ f_pre_cur (d_fidst d') = true /\
    f_grad_cur (d_fidst d') = f_grad_cur (d_fidst d) /\
    (d_evo_cur d = true -> d_evo_cur d' = true) /\
    f_dimnorm (d_fidst d') = f_dimnorm (d_fidst d).
Proof.
  intros HF I. unfold get_fidelity_prenorm.
  destruct (f_pre_cur (d_fidst d)) eqn:Ep.
  - rewrite (inv_pre _ _ I Ep); cbn [some_or bind]. exists d; splits; auto.
  - rewrite (n_ts_eq d) by apply I.
    destruct (evo_ok a d I) as (d1 & b & -> & I1 & C1 & F1 & _). cbn [bind].
    pose proof (inv_cur _ _ I1 C1) as Cu.
    destruct (cur_onto _ _ _ _ _ _ Cu HF n (le_n _)) as (l & El & En).
    rewrite El; cbn [some_or bind]. rewrite (getf_ok _ _ _ En); cbn [bind].
    rewrite (getf_ok _ _ _ (fwd_last a d1 (inv_shape _ _ I) Cu)); cbn [bind].
    rewrite skipn_all2 by (rewrite (props_length s n m dr c); auto; apply I).
    cbn [devolve fold_right].
    fold (overlap s a).
    set (f1 := d_fidst d1 <| f_prenorm := Some (overlap s a) |> <| f_pre_cur := true |>).
    exists (bump_fid (d1 <| d_fidst := f1 |>)).
    split; [reflexivity|].
    assert (E : exists st, bump_fid (d1 <| d_fidst := f1 |>) = d1 <| d_fidst := f1 |> <| d_stats := st |>).
    { unfold bump_fid; cbn. destruct (d_stats d1) eqn:Es; eexists; [reflexivity|].
      instantiate (1 := None). destruct d1; cbn in *; subst; reflexivity. }
    destruct E as (st & ->). splits; cbn; auto; try congruence.
    apply Inv_fid'; auto; cbn; apply I1.
Qed.

Lemma fidelity_ok a d : s_fid s = FUnit -> Inv a d ->
  exists d', get_fidelity d = Ok (d', fidelity_of s a) /\ Inv a d' /\
    f_grad_cur (d_fidst d') = f_grad_cur (d_fidst d) /\
    (d_evo_cur d = true -> d_evo_cur d' = true).
Proof.
  intros HF I. unfold get_fidelity. rewrite (st_set _ _ _ _ _ _ (inv_st _ _ I)), settled_fid, HF.
  destruct (f_fid_cur (d_fidst d)) eqn:Ef.
  - rewrite (inv_fid _ _ I HF Ef); cbn [some_or bind]. exists d; auto.
  - destruct (prenorm_ok a d HF I) as (d1 & -> & I1 & F1 & P1 & G1 & E1 & D1). cbn [bind].
    assert (Ev : fid_norm (s_phopt (d_set d1)) (f_dimnorm (d_fidst d1)) (overlap s a) = fidelity_of s a).
    { rewrite (st_set _ _ _ _ _ _ (inv_st _ _ I1)), settled_phopt.
      rewrite (st_norm _ _ _ _ _ _ (inv_st _ _ I1) HF).
      unfold fid_norm, fidelity_of. destruct (s_phopt s); f_equal; unfold Rdiv; rewrite Rinv_1, Rmult_1_r; auto. }
    rewrite Ev. eexists; split; [reflexivity|]. splits; auto.
    set (f1 := d_fidst d1 <| f_fidelity := Some (fidelity_of s a) |> <| f_fid_cur := true |>).
    replace (d1 <| d_fidst; f_fidelity := Some (fidelity_of s a) |> <| d_fidst; f_fid_cur := true |>)
      with (d1 <| d_fidst := f1 |> <| d_stats := d_stats d1 |>) by (destruct d1; reflexivity).
    apply Inv_fid'; auto; cbn; try apply I1. congruence.
Qed.

Lemma fid_err_ok a d : Inv a d ->
  exists d', get_fid_err d = Ok (d', fid_err_of s a) /\ Inv a d'.
Proof.
  intros I. unfold get_fid_err. rewrite (st_set _ _ _ _ _ _ (inv_st _ _ I)), settled_fid.
  unfold fid_err_of. case_eq (s_fid s); intros HF.
  - destruct (fidelity_ok a d HF I) as (d1 & -> & I1 & _). cbn [bind]. eauto.
  - destruct (f_fid_cur (d_fidst d)) eqn:Ef.
    + rewrite (inv_err _ _ I HF Ef); cbn [some_or bind]. eauto.
    + destruct (evo_ok a d I) as (d1 & b & -> & I1 & C1 & F1 & _). cbn [bind].
      pose proof (inv_cur _ _ I1 C1) as Cu.
      rewrite (n_ts_eq d1) by apply I1.
      rewrite (getf_ok _ _ _ (fwd_last a d1 (inv_shape _ _ I) Cu)); cbn [bind].
      rewrite (st_target _ _ _ _ _ _ (inv_st _ _ I1)); cbn [some_or bind].
      rewrite (st_set _ _ _ _ _ _ (inv_st _ _ I1)), (settled_scale _ HF); cbn [some_or bind].
      change (trace_err (trace_scale s) (osub A (s_target s) (final_of s a))) with (trace_dist s a).
      eexists; split; [reflexivity|].
      set (f1 := d_fidst d1 <| f_fid_err := Some (trace_dist s a) |> <| f_fid_cur := true |>).
      assert (E : exists st, bump_fid (d1 <| d_fidst; f_fid_err := Some (trace_dist s a) |>)
                  <| d_fidst; f_fid_cur := true |> = d1 <| d_fidst := f1 |> <| d_stats := st |>).
      { unfold bump_fid; cbn. destruct (d_stats d1) eqn:Es; eexists; [reflexivity|].
        instantiate (1 := None). destruct d1; cbn in *; subst; reflexivity. }
      destruct E as (st & ->).
      apply Inv_fid'; auto; cbn; try apply I1. congruence.
Qed.

(** *** Gradient *)

Lemma ensure_same a d k : k < n -> shape n m a -> s_prop s = Diag -> DecOk s a d k -> ensure_decomp_curr k d = Ok d.
Proof.
  intros Hk Ha HD Hd. unfold ensure_decomp_curr.
  destruct (slot s n m dr c Htau Hpos Hdr Hdrf Hc Hcf Hm Hdiagc Hfr Haug Hdiag a Ha k Hk)
    as (d0 & row & cs & t & g & E0 & E1 & E2 & E3 & L1 & L2 & _ & Eg & Ep).
  pose proof (Hd t g E3 Eg) as Hd'. destruct (oeigh A g) as [lam V].
  destruct Hd' as ((cur & Ec & Ek) & _). rewrite Ec.
  rewrite (get_ok _ _ _ Ek); reflexivity.
Qed.

Lemma prop_grad_same a d k j t g cs cj : k < n -> s_prop s <> Approx -> shape n m a ->
  Static d -> Cur a d ->
  nth_error (s_tau s) k = Some t -> nth_error (gens_of s a) k = Some g ->
  nth_error (ctrl_ops n c) k = Some cs -> nth_error cs j = Some cj ->
  exists p, compute_prop_grad k j d = Ok (d, (p, xgrad t g cj)).
Proof.
  intros Hk HA Ha St Cu Et Eg Ecs Ecj.
  destruct (prop_grad_ok s n m dr c Htau Hpos Hdr Hdrf Hc Hcf Hm Hdiagc Hfr Haug Hdiag a Ha d k j t g cs cj Hk HA St
     (cur_gen _ _ _ _ _ _ Cu k Hk) ltac:(intros HD; left; apply (cur_dec _ _ _ _ _ _ Cu HD k Hk)) Et Eg Ecs Ecj)
    as (d' & E & _).
  destruct (d_dcur d) as [x|] eqn:Ed. 2:{
    (* without decomposition lists the kind is not Diag and the state is kept *)
    exists (propagator s t g). rewrite E. f_equal.
    assert (ND : s_prop s <> Diag).
    { intros HD. destruct (st_dlists _ _ _ _ _ _ St HD); congruence. }
    unfold compute_prop_grad in E. rewrite (st_set _ _ _ _ _ _ St), settled_prop in E.
    destruct (s_prop s); try congruence.
    - apply bind_inv in E; destruct E as (? & _ & E). apply bind_inv in E; destruct E as (? & _ & E).
      apply bind_inv in E; destruct E as (? & _ & E). congruence.
    - apply bind_inv in E; destruct E as (? & _ & E). apply bind_inv in E; destruct E as (? & _ & E).
      apply bind_inv in E; destruct E as (? & _ & E). congruence. }
  exists (propagator s t g). rewrite E. f_equal.
  unfold compute_prop_grad in E. rewrite (st_set _ _ _ _ _ _ St), settled_prop in E.
  case_eq (s_prop s); intros HD; rewrite HD in E; try discriminate.
  - assert (Es : ensure_decomp_curr k d = Ok d).
    { apply (ensure_same a); auto. apply (cur_dec _ _ _ _ _ _ Cu HD k Hk). }
    rewrite Es in E; cbn [bind] in E.
    apply bind_inv in E; destruct E as ([d2 p] & E1 & E).
    assert (d2 = d) as ->.
    { unfold compute_propagator in E1. rewrite (st_set _ _ _ _ _ _ St), settled_prop, HD, Es in E1.
      cbn [bind] in E1. apply bind_inv in E1; destruct E1 as (? & _ & E1).
      apply bind_inv in E1; destruct E1 as (? & _ & E1).
      apply bind_inv in E1; destruct E1 as (? & _ & E1). congruence. }
    repeat (apply bind_inv in E; destruct E as (? & _ & E)). congruence.
  - repeat (apply bind_inv in E; destruct E as (? & _ & E)). congruence.
  - repeat (apply bind_inv in E; destruct E as (? & _ & E)). congruence.
Qed.

Lemma get_prop_grad_ok a d k j : k < n -> j < m -> s_prop s <> Approx -> shape n m a ->
  Static d -> Cur a d ->
  exists g, get_prop_grad k j d = Ok (d, g) /\ dslot xgrad s a k j = Some g.
Proof.
  intros Hk Hj HA Ha St Cu.
  destruct (slot s n m dr c Htau Hpos Hdr Hdrf Hc Hcf Hm Hdiagc Hfr Haug Hdiag a Ha k Hk)
    as (d0 & row & cs & t & g & E0 & E1 & E2 & E3 & L1 & L2 & _ & Eg & Ep).
  destruct (nth_ex cs j) as (cj & Ecj); [lia|].
  exists (xgrad t g cj). split.
  - unfold get_prop_grad. rewrite (st_set _ _ _ _ _ _ St), settled_cache_pg.
    case_eq (s_cache_pg s); intros Ec.
    + assert (He : grad_exact (s_prop s) && s_cache_pg s = true).
      { rewrite Ec. destruct (s_prop s); auto; congruence. }
      destruct (cur_pg _ _ _ _ _ _ Cu He k j Hk Hj t g cs cj E3 Eg E2 Ecj) as (pg & rw & Q1 & Q2 & Q3).
      rewrite Q1; cbn [some_or bind]. rewrite (get_ok _ _ _ Q2); cbn [bind].
      rewrite (getf_ok _ _ _ Q3); reflexivity.
    + destruct (prop_grad_same a d k j t g cs cj Hk HA Ha St Cu E3 Eg E2 Ecj) as (p & ->). reflexivity.
  - unfold dslot. rewrite Hc, E3, Eg, Htau, E2, Ecj. reflexivity.
Qed.

Lemma dslot_out a k j : shape n m a -> ~ (k < n /\ j < m) -> dslot xgrad s a k j = None.
Proof.
  intros Ha Hn. unfold dslot. rewrite Hc, Htau.
  destruct (nth_error (s_tau s) k) as [t|] eqn:Et; auto.
  destruct (nth_error (gens_of s a) k) as [g|] eqn:Eg; auto.
  destruct (nth_error (ctrl_ops n c) k) as [cs|] eqn:Ecs; auto.
  pose proof (ctrl_ops_row s n m dr c Htau Hpos Hdr Hdrf Hc Hcf Hm Hdiagc Hfr Haug Hdiag a Ha _ _ Ecs).
  apply nth_lt in Et. rewrite Htau in Et.
  destruct (nth_error cs j) eqn:Ej; auto. apply nth_lt in Ej. lia.
Qed.

Lemma grad_array a (g : amps) :
  shape n m a -> length g = n -> Forall (fun r => length r = m) g ->
  (forall k j, k < n -> j < m -> exists row x, nth_error g k = Some row /\ nth_error row j = Some x /\
     grad_entry_of xgrad s a k j = Some x) ->
  grad_is xgrad s a g.
Proof.
  intros Ha L F H. split; [destruct Ha; congruence|]. intros k j.
  destruct (lt_dec k n) as [Hk|Hk]; [destruct (lt_dec j m) as [Hj|Hj]|].
  - destruct (H k j Hk Hj) as (row & x & -> & E & ->); auto.
  - assert (E : grad_entry_of xgrad s a k j = None).
    { unfold grad_entry_of, doverlap, dfinal. rewrite (dslot_out a k j Ha) by lia. destruct (s_fid s); auto. }
    rewrite E. destruct (nth_error g k) as [row|] eqn:Er; auto.
    apply nth_error_None. rewrite Forall_forall in F. rewrite (F row); [lia|]. eapply nth_error_In; eauto.
  - assert (E : grad_entry_of xgrad s a k j = None).
    { unfold grad_entry_of, doverlap, dfinal. rewrite (dslot_out a k j Ha) by lia. destruct (s_fid s); auto. }
    rewrite E. destruct (nth_error g k) as [row|] eqn:Er; auto. apply nth_lt in Er. lia.
Qed.

Lemma gradient_ok a d : s_prop s <> Approx -> Inv a d ->
  exists d' g, get_fid_err_gradient d = Ok (d', g) /\ Inv a d' /\ grad_is xgrad s a g /\
     f_gradnorm (d_fidst d') = norm2 g.
Proof.
  intros HA I. unfold get_fid_err_gradient.
  destruct (f_grad_cur (d_fidst d)) eqn:Eg.
  { destruct (inv_grad _ _ I Eg) as (_ & g & Egr & Hn & Hg). rewrite Egr; cbn [some_or bind].
    exists d, g; splits; auto. }
  set (calc := match s_fid (d_set d) with FUnit => _ | FTrace => _ end).
  assert (Hcalc : exists d1 g, calc = Ok (d1, g) /\ Inv a d1 /\ grad_is xgrad s a g).
  { unfold calc. rewrite (st_set _ _ _ _ _ _ (inv_st _ _ I)), settled_fid.
    case_eq (s_fid s); intros HF.
    - unfold compute_fid_grad. rewrite (num_ctrls_ok s n m dr c Htau Hpos Hdr Hdrf Hc Hcf Hm Hdiagc Hfr Haug Hdiag a (inv_shape _ _ I) d (inv_st _ _ I)). cbn [bind].
      rewrite (n_ts_eq d) by apply I.
      destruct (evo_ok a d I) as (d1 & b & -> & I1 & C1 & F1 & _). cbn [bind].
      pose proof (inv_cur _ _ I1 C1) as Cu.
      destruct (fill_grad_const n m unit_grad_entry (RtoC 0) d1
                  (fun k j x => doverlap xgrad s a k j = Some x)) as (gp & -> & L & F & H).
      { intros k j Hk Hj. unfold unit_grad_entry.
        pose proof (cur_fwd _ _ _ _ _ _ Cu k ltac:(lia)) as Hf. unfold FwdOk in Hf.
        rewrite (getf_ok _ _ _ Hf); cbn [bind].
        destruct (cur_onto _ _ _ _ _ _ Cu HF (k + 1) ltac:(lia)) as (l & El & En).
        rewrite El; cbn [some_or bind]. rewrite (getf_ok _ _ _ En); cbn [bind].
        destruct (get_prop_grad_ok a d1 k j Hk Hj HA (inv_shape _ _ I1) (inv_st _ _ I1) Cu) as (g & -> & Es).
        cbn [bind]. eexists; split; [reflexivity|]. unfold doverlap. rewrite Es.
        replace (k + 1) with (S k) by lia. reflexivity. }
      cbn [bind].
      destruct (fidelity_ok a d1 HF I1) as (d2 & -> & I2 & G2 & E2). cbn [bind].
      destruct (prenorm_ok a d2 HF I2) as (d3 & -> & I3 & F3 & P3 & G3 & E3 & D3). cbn [bind].
      eexists _, _; split; [reflexivity|]. split; auto.
      apply grad_array; [apply I|now rewrite map_length| |].
      + rewrite Forall_map. eapply Forall_impl; [|exact F]. intros r Hr; cbn. now rewrite map_length.
      + intros k j Hk Hj. destruct (H k j Hk Hj) as (row & x & Er & Ex & Ed).
        rewrite nth_error_map, Er; cbn. eexists _, _; split; [reflexivity|].
        rewrite nth_error_map, Ex; cbn. split; [reflexivity|].
        unfold grad_entry_of. rewrite HF, Ed. f_equal.
        rewrite (st_set _ _ _ _ _ _ (inv_st _ _ I3)), settled_phopt.
        rewrite (st_norm _ _ _ _ _ _ (inv_st _ _ I3) HF). unfold leR.
        destruct Rle_dec; f_equal; unfold grad_norm_entry, fid_norm; destruct (s_phopt s);
          rewrite ?unphase_spec; unfold Rdiv; rewrite ?Rinv_1, ?Rmult_1_r; auto.
    - unfold compute_fid_err_grad. rewrite (num_ctrls_ok s n m dr c Htau Hpos Hdr Hdrf Hc Hcf Hm Hdiagc Hfr Haug Hdiag a (inv_shape _ _ I) d (inv_st _ _ I)). cbn [bind].
      rewrite (n_ts_eq d) by apply I.
      destruct (evo_ok a d I) as (d1 & b & -> & I1 & C1 & F1 & _). cbn [bind].
      pose proof (inv_cur _ _ I1 C1) as Cu.
      destruct (fill_grad_const n m (trace_grad_entry n) 0%R d1
                  (fun k j x => grad_entry_of xgrad s a k j = Some x)) as (gp & -> & L & F & H).
      { intros k j Hk Hj. unfold trace_grad_entry.
        rewrite (getf_ok _ _ _ (fwd_last a d1 (inv_shape _ _ I) Cu)); cbn [bind].
        rewrite (st_target _ _ _ _ _ _ (inv_st _ _ I1)); cbn [some_or bind].
        rewrite (st_set _ _ _ _ _ _ (inv_st _ _ I1)), (settled_scale _ HF); cbn [some_or bind].
        pose proof (cur_fwd _ _ _ _ _ _ Cu k ltac:(lia)) as Hf. unfold FwdOk in Hf.
        rewrite (getf_ok _ _ _ Hf); cbn [bind].
        destruct (get_prop_grad_ok a d1 k j Hk Hj HA (inv_shape _ _ I1) (inv_st _ _ I1) Cu) as (g & -> & Es).
        cbn [bind]. unfold grad_entry_of; rewrite HF. unfold dfinal. rewrite Es.
        destruct (k + 1 <? n) eqn:Ek.
        - apply Nat.ltb_lt in Ek.
          destruct (cur_onwd _ _ _ _ _ _ Cu HF (k + 1) Ek) as (l & p & El & Ep & Epr).
          rewrite El; cbn [some_or bind]. rewrite (getf_ok _ _ _ Ep); cbn [bind].
          replace (k + 1) with (S k) in Epr by lia. rewrite Epr.
          eexists; split; reflexivity.
        - apply Nat.ltb_ge in Ek. cbn [bind].
          rewrite skipn_all2 by (rewrite (props_length s n m dr c); auto; [lia|apply I]). cbn [product].
          eexists; split; reflexivity. }
      exists d1, gp; splits; auto. apply grad_array; auto. apply I. }
  destruct Hcalc as (d1 & g & -> & I1 & Hg). cbn [bind].
  eexists _, g; split; [reflexivity|].
  set (f1 := d_fidst d1 <| f_grad := Some g |> <| f_grad_cur := true |> <| f_gradnorm := norm2 g |>).
  assert (E : exists st, bump_grad (d1 <| d_fidst; f_grad := Some g |> <| d_fidst; f_grad_cur := true |>)
                  <| d_fidst; f_gradnorm := norm2 g |> = d1 <| d_fidst := f1 |> <| d_stats := st |>).
  { unfold bump_grad; cbn. destruct (d_stats d1) eqn:Es; eexists; [reflexivity|].
    instantiate (1 := None). destruct d1; cbn in *; subst; reflexivity. }
  destruct E as (st & ->). splits; auto.
  apply Inv_fid'; auto; cbn; try apply I1. eauto.
Qed.

(** *** Initialisation *)

(** What an object may remember from an earlier problem without harm. *)
Record reinit_ok (d : dyn A) : Prop := {
  ri_nc : d_num_ctrls d = None \/ d_num_ctrls d = Some m;
  ri_td : d_num_ctrls d = None -> d_td_ctrl d = true -> is_carr c = true;
  ri_td' : d_num_ctrls d <> None -> d_td_ctrl d = is_carr c;
  ri_ph : s_cache_ph s' = false -> d_pctrl d = None /\ (s_phase s = None \/ d_pdg d = None);
  ri_dcur : s_prop s <> Diag -> forall l, d_dcur d = Some l -> n <= length l;
  ri_eadj : s_prop s = Diag -> s_cache_adj s = false -> forall l, d_eadj d = Some l -> n <= length l;
}.

Lemma map_ham_set (d : dyn A) : s_class (d_set d) = Unitary ->
  map_dyn_gen_to_ham d = d <| d_set := settle_map (d_set d) |> <| d_mapped := true |>.
Proof. intros H. unfold map_dyn_gen_to_ham, settle_map. rewrite H. reflexivity. Qed.

Lemma settle_map_class (x : settings A) : s_class (settle_map x) = s_class x.
Proof.
  unfold settle_map; destruct x as [[] [?|] [?|] ? ? ? ? ? ? ? ? ? ? ? ? ? ? ? ? ?]; reflexivity.
Qed.
Lemma settle_map_drift (x : settings A) : s_drift (settle_map x) = eff_drift x.
Proof.
  unfold settle_map, eff_drift; destruct x as [[] [?|] [?|] ? ? ? ? ? ? ? ? ? ? ? ? ? ? ? ? ?]; reflexivity.
Qed.
Lemma settle_map_ctrls (x : settings A) : s_ctrls (settle_map x) = eff_ctrls x.
Proof.
  unfold settle_map, eff_ctrls; destruct x as [[] [?|] [?|] ? ? ? ? ? ? ? ? ? ? ? ? ? ? ? ? ?]; reflexivity.
Qed.
Lemma settle_phase_ctrls (x : settings A) : s_ctrls (settle_phase x) = s_ctrls x.
Proof. unfold settle_phase; destruct (s_phase x); reflexivity. Qed.
Lemma settle_phase_class (x : settings A) : s_class (settle_phase x) = s_class x.
Proof. unfold settle_phase; destruct (s_phase x); reflexivity. Qed.

Lemma settle_pre_fields : let x := settle_phase (settle_map s) in
  s_drift x = Some dr /\ s_ctrls x = Some c /\ s_tau x = s_tau s /\ s_class x = s_class s /\
  s_prop x = s_prop s /\ s_fid x = s_fid s /\ s_phase x = s_phase s /\ s_phapp x = s_phapp s /\
  s_initial x = s_initial s /\ s_target x = s_target s /\ s_cache_pg x = s_cache_pg s /\
  s_cache_adj x = s_cache_adj s /\ s_cache_ph x = s_cache_ph s' /\ s_phopt x = s_phopt s /\
  s_scale x = s_scale s /\ s_dim x = s_dim s.
Proof.
  revert Hdr Hc. clear. cbv zeta. unfold settled, settle_scale, settle_phase, settle_map, eff_drift, eff_ctrls.
  destruct s as [[] [?|] [?|] ? ? ? ? ? [?|] ? ? ? ? ? ? ? [] ? [?|] ?]; cbn; intros; splits; auto.
Qed.

Lemma phased_settle x : s_phase x = s_phase s -> s_phapp x = s_phapp s ->
  phased_ctrls x c = phased_ctrls s' c.
Proof.
  intros E1 E2. assert (E : forall o, apply_phase x o = apply_phase s' o).
  { intros o. unfold apply_phase. rewrite E1, E2, settled_phase, settled_phapp. reflexivity. }
  unfold phased_ctrls. destruct c; f_equal.
  - apply map_ext; auto.
  - apply map_ext; intros; apply map_ext; auto.
Qed.

Lemma init_evo_ok d : d_set d = settle_map s -> (s_class s = Unitary -> d_mapped d = true) -> reinit_ok d ->
  exists d', init_evo d = Ok d' /\ d_set d' = settle_phase (settle_map s) /\
    (forall f, (s_fid s = FUnit -> f_dimnorm f = fid_norm (s_phopt s) 1 (target_norm s)) ->
       Static (d' <| d_set := s' |> <| d_fidst := f |>)) /\
    d_amps d' = d_amps d /\ d_fidst d' = d_fidst d /\ d_stats d' = d_stats d.
Proof.
  intros Es Hmp R. unfold init_evo.
  assert (E1 : refresh_drift_attribs d = Ok (d <| d_td_drift := is_dlist dr |>)).
  { unfold refresh_drift_attribs. rewrite Es, settle_map_drift, Hdr.
    destruct dr as [o|l]; cbn; auto. cbn in Hdrf.
    destruct (nth_ex l 0) as (x & Ex); [lia|]. rewrite (get_ok _ _ _ Ex); reflexivity. }
  rewrite E1; cbn [bind].
  set (d1 := d <| d_td_drift := is_dlist dr |>).
  assert (E2 : init_phase d1 = d1 <| d_set := settle_phase (settle_map s) |>).
  { unfold init_phase, settle_phase. replace (d_set d1) with (settle_map s) by auto.
    destruct (s_phase (settle_map s)); cbn.
    - subst d1; destruct d; cbn in *; subst; reflexivity.
    - subst d1; destruct d; cbn in *; subst; reflexivity. }
  rewrite E2. set (d2 := d1 <| d_set := _ |>).
  set (sx := settle_phase (settle_map s)) in *.
  destruct settle_pre_fields as (X1 & X2 & X3 & X4 & X5 & X6 & X7 & X8 & X9 & X10 & X11 & X12 & X13 & X14 & X15 & X16).
  fold sx in X1, X2, X3, X4, X5, X6, X7, X8, X9, X10, X11, X12, X13, X14, X15, X16.
  assert (En : n_ts d2 = n) by (unfold n_ts; cbn; rewrite X3; auto).
  rewrite En.
  assert (E3 : exists nc td, get_num_ctrls d2 = Ok (d2 <| d_num_ctrls := Some m |> <| d_td_ctrl := td |>, nc) /\ nc = m /\ td = is_carr c).
  { unfold get_num_ctrls.
    assert (Em : match s_class (d_set d2) with
                 | GenMat => d2
                 | Unitary => if d_mapped d2 then d2 else map_dyn_gen_to_ham d2
                 end = d2).
    { cbn. rewrite X4. destruct (s_class s) eqn:Ec; auto. rewrite Hmp; auto. }
    rewrite Em. destruct R.
    replace (d_num_ctrls d2) with (d_num_ctrls d) by reflexivity.
    destruct (d_num_ctrls d) as [k|] eqn:Ek.
    - destruct ri_nc0 as [|E]; [congruence|]. injection E as ->.
      exists m, (is_carr c); split; auto. f_equal. f_equal.
      assert (Et : d_td_ctrl d = is_carr c) by (apply ri_td'0; congruence).
      subst d2 d1. destruct d; cbn in *. subst. reflexivity.
    - replace (s_ctrls (d_set d2)) with (Some c) by (cbn; auto).
      destruct c as [l|rows]; cbn in Hcf.
      + exists m, false; split; auto. rewrite Hcf. f_equal. f_equal.
        assert (Et : d_td_ctrl d = false).
        { destruct (d_td_ctrl d); auto. specialize (ri_td0 eq_refl eq_refl); discriminate. }
        subst d2 d1. destruct d; cbn in *. subst. reflexivity.
      + destruct Hcf as [L F]. destruct (nth_ex rows 0) as (r0 & Er); [lia|].
        rewrite (get_ok _ _ _ Er); cbn [bind].
        assert (length r0 = m) as -> by (rewrite Forall_forall in F; apply F; eapply nth_error_In; eauto).
        exists m, true; auto. }
  destruct E3 as (nc & td & E3 & -> & ->). rewrite E3; cbn [bind].
  set (d3 := d2 <| d_num_ctrls := Some m |> <| d_td_ctrl := is_carr c |>).
  replace (d_set d3) with sx by reflexivity.
  rewrite X1, X2, X5, X6, X9, X10, X11, X12, X13, onto_target_spec.
  assert (X17 : undo_target sx = undo_target s) by (unfold undo_target; rewrite X4, X10; auto).
  rewrite X17.
  set (d4 := d3 <| d_target := Some (s_target s) |> <| d_drift := Some dr |> <| d_ctrls := Some c |>).
  set (d5 := if s_cache_ph s' then _ else d4).
  set (d6 := d5 <| d_dg := _ |> <| d_prop := _ |>).
  set (d7 := if grad_exact (s_prop s) && s_cache_pg s then _ else d6).
  set (d8 := d7 <| d_fwd := _ |>).
  set (d9 := if uses_onwd (s_fid s) then _ else d8).
  set (d10 := if uses_onto (s_fid s) then _ else d9).
  set (d11 := match s_prop s with Diag => _ | _ => d10 end).
  exists d11; split; [reflexivity|].
  assert (B5 : d_set d5 = sx /\ d_num_ctrls d5 = Some m /\ d_mapped d5 = d_mapped d /\
     d_td_drift d5 = is_dlist dr /\ d_td_ctrl d5 = is_carr c /\ d_drift d5 = Some dr /\ d_ctrls d5 = Some c /\
     d_target d5 = Some (s_target s) /\ d_amps d5 = d_amps d /\ d_fidst d5 = d_fidst d /\ d_stats d5 = d_stats d /\
     d_dcur d5 = d_dcur d /\ d_eadj d5 = d_eadj d /\
     d_pctrl d5 = (if s_cache_ph s' then Some (phased_ctrls s' c) else None) /\
     (if s_cache_ph s' then exists l, d_pdg d5 = Some l /\ length l = n
      else s_phase s = None \/ d_pdg d5 = None)).
  { pose proof (ri_ph _ R) as Hph. subst d5.
    destruct (s_cache_ph s'); cbn; splits; auto.
    - f_equal. apply phased_settle; auto.
    - eexists; split; [reflexivity|apply repeat_length].
    - apply Hph; auto.
    - apply Hph; auto. }
  clearbody d5.
  assert (B7 : d_pg d7 = d_pg d7 /\ (grad_exact (s_prop s) && s_cache_pg s = true ->
      exists pg, d_pg d7 = Some pg /\ length pg = n /\ Forall (fun r => length r = m) pg) /\
      exists pgx, d7 = d6 <| d_pg := pgx |>).
  { split; auto. subst d7. destruct (grad_exact (s_prop s) && s_cache_pg s); split; try congruence.
    - intros _. eexists; split; [reflexivity|]. split; [apply repeat_length|].
      apply Forall_forall; intros r Hr; apply repeat_spec in Hr; subst; apply repeat_length.
    - eexists; reflexivity.
    - exists (d_pg d6). destruct d6; reflexivity. }
  destruct B7 as (_ & B7 & pgx & E7). clearbody d7.
  assert (B9 : (s_fid s = FTrace -> exists l, d_onwd d9 = Some l /\ length l = n) /\
     exists ox, d9 = d8 <| d_onwd := ox |>).
  { subst d9. destruct (s_fid s) eqn:EF; cbn [uses_onwd]; split; try congruence.
    - exists (d_onwd d8). destruct d8; reflexivity.
    - intros _. eexists; split; [reflexivity|apply repeat_length].
    - eexists; reflexivity. }
  destruct B9 as (B9 & ox & E9). clearbody d9.
  assert (B10 : (s_fid s = FUnit -> exists l, d_onto d10 = Some l /\ length l = S n /\
                                 nth_error l n = Some (Some (undo_target s))) /\
     exists ox, d10 = d9 <| d_onto := ox |>).
  { subst d10. destruct (s_fid s) eqn:EF; cbn [uses_onto]; split; try congruence.
    - intros _. eexists; split; [reflexivity|]. split; [rewrite app_length, repeat_length; cbn; lia|].
      rewrite nth_error_app2 by (rewrite repeat_length; lia). rewrite repeat_length, Nat.sub_diag. reflexivity.
    - eexists; reflexivity.
    - exists (d_onto d9). destruct d9; reflexivity. }
  destruct B10 as (B10 & ox' & E10). clearbody d10.
  assert (B11 : (forall l, d_dcur d11 = Some l -> n <= length l) /\
    (s_prop s = Diag -> d_dcur d11 <> None /\ length (d_peig d11) = n /\
                                 length (d_evec d11) = n /\ length (d_fac d11) = n) /\
    (s_prop s = Diag -> forall l, d_eadj d11 = Some l -> n <= length l) /\
    exists e1 e2 e3 e4 e5, d11 = d10 <| d_dcur := e1 |> <| d_peig := e2 |> <| d_evec := e3 |> <| d_fac := e4 |> <| d_eadj := e5 |>).
  { pose proof (ri_dcur _ R) as H1. pose proof (ri_eadj _ R) as H2.
    destruct B5 as (_ & _ & _ & _ & _ & _ & _ & _ & _ & _ & _ & F1 & F2 & _).
    assert (G1 : d_dcur d10 = d_dcur d) by (rewrite E10; cbn; rewrite E9; cbn; subst d8; rewrite E7; cbn; auto).
    assert (G2 : d_eadj d10 = d_eadj d) by (rewrite E10; cbn; rewrite E9; cbn; subst d8; rewrite E7; cbn; auto).
    subst d11. destruct (s_prop s) eqn:EP.
    2:{ destruct (s_cache_adj s) eqn:Ea; cbn; splits; try congruence; try (intros; apply repeat_length).
        all: try (intros l [= <-]; rewrite repeat_length; lia).
        all: try (intros _; splits; try congruence; apply repeat_length).
        all: try (intros _ l [= <-]; rewrite repeat_length; lia).
        all: try (rewrite G2; intros _; apply H2; auto; fail).
        - exists (Some (repeat false n)), (repeat None n), (repeat None n), (repeat None n), (Some (repeat None n)).
          destruct d10; reflexivity.
        - exists (Some (repeat false n)), (repeat None n), (repeat None n), (repeat None n), (d_eadj d10).
          destruct d10; reflexivity. }
    all: splits; try congruence; [rewrite G1; apply H1; congruence|];
         exists (d_dcur d10), (d_peig d10), (d_evec d10), (d_fac d10), (d_eadj d10); destruct d10; reflexivity. }
  destruct B11 as (B11 & B11' & B11'' & e1 & e2 & e3 & e4 & e5 & E11). clearbody d11.
  destruct B5 as (F1 & F2 & F3 & F4 & F5 & F6 & F7 & F8 & F9 & F10 & F11 & F12 & F13 & F14 & F15).
  assert (Q : d_set d11 = sx /\ d_num_ctrls d11 = Some m /\ d_mapped d11 = d_mapped d /\
     d_td_drift d11 = is_dlist dr /\ d_td_ctrl d11 = is_carr c /\ d_drift d11 = Some dr /\ d_ctrls d11 = Some c /\
     d_target d11 = Some (s_target s) /\ d_amps d11 = d_amps d /\ d_fidst d11 = d_fidst d /\ d_stats d11 = d_stats d /\
     d_pctrl d11 = d_pctrl d5 /\ d_pdg d11 = d_pdg d5 /\ d_dg d11 = repeat None n /\ d_prop d11 = repeat None n /\
     d_pg d11 = d_pg d7 /\ d_onwd d11 = d_onwd d9 /\ d_onto d11 = d_onto d10 /\
     d_fwd d11 = Some (s_initial s) :: repeat None n).
  { rewrite E11; cbn. rewrite E10; cbn. rewrite E9; cbn. subst d8; rewrite E7; cbn. subst d6; cbn.
    splits; auto. }
  destruct Q as (Q1 & Q2 & Q3 & Q4 & Q5 & Q6 & Q7 & Q8 & Q9 & Q10 & Q11 & Q12 & Q13 & Q14 & Q15 & Q16 & Q17 & Q18 & Q19).
  splits; auto.
  intros f Hf. constructor; cbn; auto; try congruence.
  - intros HU. rewrite Q3; auto.
  - rewrite Q13. exact F15.
  - rewrite Q14; apply repeat_length.
  - rewrite Q15; apply repeat_length.
  - rewrite Q19; cbn; rewrite repeat_length; auto.
  - rewrite Q19; reflexivity.
  - rewrite Q16; auto.
  - rewrite Q17; auto.
  - rewrite Q18; auto.
Qed.

Lemma init_ok a d : d_set d = s -> shape n m a -> reinit_ok d ->
  exists d', initialize_controls a d = Ok d' /\ Inv a d' /\ d_evo_cur d' = false /\
    (forall st, d_stats d = Some st -> exists st', d_stats d' = Some st' /\ st_recompute st' = st_recompute st /\
        st_fid st' = st_fid st /\ st_grad st' = st_grad st).
Proof.
  intros Es Ha R. unfold initialize_controls.
  set (d0 := match s_class (d_set d) with GenMat => d | Unitary => map_dyn_gen_to_ham d end).
  assert (E0 : d0 = d <| d_set := settle_map s |> <| d_mapped := (match s_class s with Unitary => true | _ => d_mapped d end) |>).
  { subst d0. rewrite Es. destruct (s_class s) eqn:Ec.
    - unfold settle_map; rewrite Ec. destruct d; cbn in *; subst; reflexivity.
    - rewrite map_ham_set by (rewrite Es; auto). rewrite Es; auto. }
  set (d1 := d0 <| d_amps := None |>).
  destruct (init_evo_ok d1) as (d2 & -> & S2 & St2 & A2 & F2 & T2).
  - subst d1; rewrite E0; reflexivity.
  - subst d1; rewrite E0; cbn. intros ->; auto.
  - destruct R; subst d1; rewrite E0; constructor; cbn; auto.
  - cbn [bind].
    destruct settle_pre_fields as (X1 & X2 & X3 & X4 & X5 & X6 & X7 & X8 & X9 & X10 & X11 & X12 & X13 & X14 & X15 & X16).
    assert (E3 : exists f, fid_init_comp d2 = d2 <| d_set := s' |> <| d_fidst := f |> /\
        (s_fid s = FUnit -> f_dimnorm f = fid_norm (s_phopt s) 1 (target_norm s))).
    { unfold fid_init_comp. rewrite S2, X6.
      unfold settled, settle_scale. rewrite X6, X15, X14, X10, X16.
      case_eq (s_fid s); intros HF.
      - exists (d_fidst d2 <| f_dimnorm := fid_norm (s_phopt s) 1 (target_norm s) |>).
        split; [|intros _; reflexivity]. destruct d2; cbn in *; subst; reflexivity.
      - exists (d_fidst d2). split; [|congruence].
        destruct (s_scale s); destruct d2; cbn in *; subst; reflexivity. }
    destruct E3 as (f & E3 & Hf). rewrite E3.
    set (d3 := d2 <| d_set := s' |> <| d_fidst := f |>).
    specialize (St2 f Hf). fold d3 in St2.
    assert (A3 : d_amps d3 = None) by (cbn; rewrite A2; reflexivity).
    unfold update_ctrl_amps, compare_amps. cbn [d_amps d_stats].
    replace (d_amps (d3 <| d_init := true |>)) with (None (A:=amps)) by (cbn; auto).
    cbn [bind].
    set (d4 := match d_stats _ with Some st => _ | None => _ end).
    eexists; split; [reflexivity|].
    assert (St4 : Static d4).
    { subst d4. cbn. destruct (d_stats d2); destruct St2; constructor; cbn; auto. }
    split; [|split].
    + constructor; auto; unfold flag_system_changed; cbn; try discriminate.
      destruct St4; constructor; cbn; auto.
    + reflexivity.
    + intros st Hst. subst d4. cbn. rewrite T2. subst d1; rewrite E0; cbn. rewrite Hst.
      eexists; split; [reflexivity|auto].
Qed.

(** *** Amplitude updates *)

Lemma neq_row_spec (x y : list R) : length x = length y ->
  exists r, neq_row x y = Ok r /\ length r = length x /\
    forall j u v, nth_error x j = Some u -> nth_error y j = Some v -> nth_error r j = Some (neqR u v).
Proof.
  clear. revert y; induction x as [|u x IH]; intros [|v y] L; try discriminate; cbn.
  - exists []; splits; auto. intros [|j]; discriminate.
  - destruct (IH y ltac:(cbn in L; lia)) as (r & -> & Lr & H). cbn [bind].
    eexists; splits; [reflexivity|cbn; lia|]. intros [|j] u' v'; cbn; [congruence|apply H].
Qed.

Lemma neqR_spec x y : neqR x y = true <-> x <> y.
Proof. clear. unfold neqR. destruct Req_EM_T; split; congruence. Qed.

Lemma neq_amps_spec (x y : amps) : shape n m x -> shape n m y ->
  exists ch, neq_amps x y = Ok ch /\ (any (map any ch) = true <-> x <> y).
Proof.
  clear. intros [L1 F1] [L2 F2].
  assert (L : length x = length y) by lia. clear L1 L2. revert y L F2.
  induction F1 as [|r x Hr F1 IH]; intros [|r' y] L F2; try discriminate; cbn.
  - exists []; split; auto. cbn. split; congruence.
  - inversion F2 as [|? ? Hr' F2']; subst.
    destruct (neq_row_spec r r' ltac:(lia)) as (b & -> & Lb & Hb). cbn [bind].
    destruct (IH y ltac:(cbn in L; lia) F2') as (ch & -> & Hch). cbn [bind].
    eexists; split; [reflexivity|]. cbn [map any existsb]. rewrite orb_true_iff. fold (any (map any ch)).
    rewrite Hch. split.
    + intros [H|H]; [|congruence]. intros [= -> ->].
      unfold any in H. apply existsb_exists in H; destruct H as (q & Hin & ->).
      apply In_nth_error in Hin; destruct Hin as (j & Ej).
      destruct (nth_ex r' j) as (u & Eu); [rewrite <- Lb; eapply nth_lt; eauto|].
      rewrite (Hb j u u Eu Eu) in Ej. injection Ej as Ej. apply neqR_spec in Ej; auto.
    + intros H. destruct (list_eq_dec Req_EM_T r r') as [->|Hne]; [right; congruence|left].
      destruct (any b) eqn:Eb; auto. exfalso; apply Hne.
      apply list_ext; [lia|]. intros k Hk.
      destruct (nth_ex r k Hk) as (u & Eu). destruct (nth_ex r' k) as (v & Ev); [lia|].
      rewrite Eu, Ev. f_equal. destruct (Req_EM_T u v) as [|Huv]; auto. exfalso.
      pose proof (Hb k u v Eu Ev) as Hk'. apply neqR_spec in Huv. rewrite Huv in Hk'.
      unfold any in Eb. assert (existsb (fun b => b) b = true); [|congruence].
      apply existsb_exists. exists true; split; auto. eapply nth_error_In; eauto.
Qed.

Lemma update_ok a a' d : shape n m a' -> Inv a d ->
  exists d', update_ctrl_amps a' d = Ok d' /\ Inv a' d' /\
   (a = a' -> d_evo_cur d' = d_evo_cur d /\ d_fidst d' = d_fidst d) /\
   (a <> a' -> d_evo_cur d' = false /\ f_fid_cur (d_fidst d') = false /\ f_grad_cur (d_fidst d') = false) /\
   (forall st, d_stats d = Some st -> exists st', d_stats d' = Some st' /\ st_recompute st' = st_recompute st).
Proof.
  intros Ha' I. unfold update_ctrl_amps, compare_amps. rewrite (inv_amps _ _ I).
  destruct (neq_amps_spec a a' (inv_shape _ _ I) Ha') as (ch & -> & Hch). cbn [bind].
  destruct (any (map any ch)) eqn:Ec; cbn [bind].
  - assert (Hne : a <> a') by (apply Hch; auto).
    set (d4 := match d_stats d with Some st => _ | None => _ end).
    eexists; split; [reflexivity|].
    assert (St4 : Static d4).
    { subst d4. pose proof (inv_st _ _ I) as St. destruct (d_stats d); auto; destruct St; constructor; cbn; auto. }
    splits.
    + constructor; auto; unfold flag_system_changed; cbn; try discriminate.
      destruct St4; constructor; cbn; auto.
    + congruence.
    + cbn; auto.
    + intros st Hst. subst d4. cbn. rewrite Hst. eexists; split; reflexivity.
  - assert (a = a') as <-.
    { destruct (list_eq_dec (list_eq_dec Req_EM_T) a a') as [|Hne]; auto. apply Hch in Hne; congruence. }
    set (d4 := match d_stats d with Some st => _ | None => _ end).
    eexists; split; [reflexivity|].
    assert (E4 : exists st, d4 = d <| d_fidst := d_fidst d |> <| d_stats := st |>).
    { subst d4. destruct (d_stats d) eqn:Es; eexists; [|instantiate (1 := None)]; destruct d; cbn in *; subst; reflexivity. }
    splits.
    + destruct E4 as (st & ->). apply Inv_fid'; auto; apply I.
    + intros _. destruct E4 as (st & ->). auto.
    + congruence.
    + intros st Hst. subst d4. rewrite Hst. eexists; split; reflexivity.
Qed.

End Hist.
