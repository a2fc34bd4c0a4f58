(** A recomputation fills every buffer with the specified values. *)
From Coq Require Import Reals Lra.
From Coquelicot Require Import Complex.
From RecordUpdate Require Import RecordUpdate.
From Verif.Model Require Import Base Dyn.
From Verif.Lib Require Import Lists.
From Verif.Spec Require Import Evolution History.
From Verif.Proofs Require Import DynInv.
Local Open Scope nat_scope.

Ltac splits := repeat match goal with |- _ /\ _ => split end.

Definition is_dlist {A} (dr : drift A) : bool := match dr with DList _ => true | _ => false end.
Definition is_carr {A} (c : ctrls A) : bool := match c with CArr _ => true | _ => false end.

Section Run.
Set Default Proof Using "All".
Context {A : Alg} (s : settings A) (n m : nat) (dr : drift A) (c : ctrls A).
Notation Op := (Op A).
Notation s' := (settled s).

Hypothesis Htau : length (s_tau s) = n.
Hypothesis Hpos : 0 < n.
Hypothesis Hdr : eff_drift s = Some dr.
Hypothesis Hdrf : drift_fits n dr.
Hypothesis Hc : eff_ctrls s = Some c.
Hypothesis Hcf : ctrls_fit n m c.
Hypothesis Hm : s_cache_pg s = true -> 0 < m.
Hypothesis Hdiagc : s_prop s = Diag -> s_class s = Unitary.
Hypothesis Hfr : s_prop s = Frechet -> forall a k j t g cj, slot_at s n m a k j t g cj -> frechet_expm s t g cj.
Hypothesis Haug : s_prop s = AugMat -> forall a k j t g cj, slot_at s n m a k j t g cj -> aug_expm s t g cj.
Hypothesis Hdiag : s_prop s = Diag -> forall a k t g,
  shape n m a -> nth_error (s_tau s) k = Some t -> nth_error (gens_of s a) k = Some g ->
  diag_expm s t g.

Notation exactc := (grad_exact (s_prop s) && s_cache_pg s).

(** The gradient each propagator computer evaluates. *)
Definition xgrad (t : R) (g cj : Op) : Op :=
  let x := oscale A (RtoC t) (with_phase s g) in
  let e := oscale A (RtoC t) (with_phase s cj) in
  match s_prop s with
  | Frechet => snd (ofrechet A x e)
  | AugMat => oblk01 A (oexpm A (oaug A x e))
  | _ =>
    let '(lam, V) := oeigh A g in
    omul A (omul A V (ohad A (oscale A (RtoC t)
              (omul A (omul A (odag A V) (with_phase s cj)) V)) (divdiff (s_prec s) lam t)))
           (odag A V)
  end.

Record Static (d : dyn A) : Prop := {
  st_set : d_set d = s';
  st_nc : d_num_ctrls d = Some m;
  st_map : s_class s = Unitary -> d_mapped d = true;
  st_tdd : d_td_drift d = is_dlist dr;
  st_tdc : d_td_ctrl d = is_carr c;
  st_drift : d_drift d = Some dr;
  st_ctrls : d_ctrls d = Some c;
  st_target : d_target d = Some (s_target s);
  st_pctrl : d_pctrl d = if s_cache_ph s' then Some (phased_ctrls s' c) else None;
  st_pdg : if s_cache_ph s' then exists l, d_pdg d = Some l /\ length l = n
           else s_phase s = None \/ d_pdg d = None;
  st_dg : length (d_dg d) = n;
  st_prop : length (d_prop d) = n;
  st_fwd : length (d_fwd d) = S n;
  st_fwd0 : nth_error (d_fwd d) 0 = Some (Some (s_initial s));
  st_pg : exactc = true -> exists pg, d_pg d = Some pg /\ length pg = n /\
                                      Forall (fun r => length r = m) pg;
  st_onwd : s_fid s = FTrace -> exists l, d_onwd d = Some l /\ length l = n;
  st_onto : s_fid s = FUnit -> exists l, d_onto d = Some l /\ length l = S n /\
                                         nth_error l n = Some (Some (undo_target s));
  st_dcur : forall l, d_dcur d = Some l -> n <= length l;
  st_dlists : s_prop s = Diag -> d_dcur d <> None /\ length (d_peig d) = n /\
                                 length (d_evec d) = n /\ length (d_fac d) = n;
  st_eadj : s_prop s = Diag -> forall l, d_eadj d = Some l -> n <= length l;
  st_norm : s_fid s = FUnit -> f_dimnorm (d_fidst d) = fid_norm (s_phopt s) 1 (target_norm s);
}.

(** What recomputation leaves alone. *)
Definition frame (d0 d : dyn A) : Prop :=
  d_amps d = d_amps d0 /\ d_evo_cur d = d_evo_cur d0 /\ d_fidst d = d_fidst d0 /\
  d_stats d = d_stats d0 /\ d_init d = d_init d0 /\
  d_dg_q d = d_dg_q d0 /\ d_prop_q d = d_prop_q d0 /\ d_pg_q d = d_pg_q d0 /\
  d_fwd_q d = d_fwd_q d0 /\ d_onwd_q d = d_onwd_q d0 /\ d_onto_q d = d_onto_q d0.

Lemma frame_trans d0 d1 d2 : frame d0 d1 -> frame d1 d2 -> frame d0 d2.
Proof.
  unfold frame; intros (? & ? & ? & ? & ? & ? & ? & ? & ? & ? & ?) (? & ? & ? & ? & ? & ? & ? & ? & ? & ? & ?).
  splits; congruence.
Qed.

Section Amps.
Variable a : amps.
Hypothesis Ha : shape n m a.

Lemma gens_eq : gens_of s a = generators n dr c a.
Proof. unfold gens_of; rewrite Hdr, Hc, Htau; reflexivity. Qed.

Lemma drift_ops_length : length (drift_ops n dr) = n.
Proof.
  unfold drift_ops, drift_fits in *; destruct dr; [apply repeat_length|].
  rewrite firstn_length, Hdrf; lia.
Qed.
Lemma ctrl_ops_length : length (ctrl_ops n c) = n.
Proof.
  unfold ctrl_ops, ctrls_fit in *; destruct c; [apply repeat_length|].
  rewrite firstn_length; destruct Hcf as [-> _]; lia.
Qed.
Lemma ctrl_ops_row k cs : nth_error (ctrl_ops n c) k = Some cs -> length cs = m.
Proof.
  intros H; unfold ctrl_ops, ctrls_fit in *; destruct c.
  - apply nth_error_In, repeat_spec in H; subst; auto.
  - destruct Hcf as [E F]. rewrite firstn_all2 in H by lia.
    rewrite Forall_forall in F; apply F. eapply nth_error_In; eauto.
Qed.
Lemma gens_length : length (gens_of s a) = n.
Proof.
  rewrite gens_eq; unfold generators; rewrite map3_length; rewrite ?drift_ops_length;
    rewrite ?ctrl_ops_length; auto. destruct Ha; auto.
Qed.

Lemma props_length : length (props_of s a) = n.
Proof. unfold props_of, propagators; rewrite map2_length; rewrite ?gens_length; auto. Qed.

(** Data of one timeslot. *)
Lemma slot k : k < n -> exists d0 row cs t g,
  nth_error (drift_ops n dr) k = Some d0 /\ nth_error a k = Some row /\
  nth_error (ctrl_ops n c) k = Some cs /\ nth_error (s_tau s) k = Some t /\
  length row = m /\ length cs = m /\ g = lincomb d0 row cs /\
  nth_error (gens_of s a) k = Some g /\ nth_error (props_of s a) k = Some (propagator s t g).
Proof.
  intros Hk.
  destruct (nth_ex (drift_ops n dr) k) as (d0 & E0); [rewrite drift_ops_length; auto|].
  destruct Ha as [L F].
  destruct (nth_ex a k) as (row & E1); [lia|].
  destruct (nth_ex (ctrl_ops n c) k) as (cs & E2); [rewrite ctrl_ops_length; auto|].
  destruct (nth_ex (s_tau s) k) as (t & E3); [lia|].
  assert (Eg : nth_error (gens_of s a) k = Some (lincomb d0 row cs)).
  { rewrite gens_eq; apply map3_nth; auto. }
  exists d0, row, cs, t, (lincomb d0 row cs). repeat split; auto.
  - rewrite Forall_forall in F; apply F; eapply nth_error_In; eauto.
  - eapply ctrl_ops_row; eauto.
  - unfold props_of, propagators. apply map2_nth; auto.
Qed.

(** *** Combining generators *)

Lemma ctrl_at_spec k cs j cj :
  nth_error (ctrl_ops n c) k = Some cs -> nth_error cs j = Some cj ->
  ctrl_at (is_carr c) c k j = Ok cj.
Proof.
  unfold ctrl_ops, is_carr; destruct c as [l|rows]; cbn; intros H1 H2.
  - apply nth_error_In, repeat_spec in H1; subst. now apply get_ok.
  - destruct Hcf as [E F]. rewrite firstn_all2 in H1 by lia.
    rewrite (get_ok _ _ _ H1); cbn. now apply get_ok.
Qed.

Lemma add_ctrls_spec k cs row :
  nth_error (ctrl_ops n c) k = Some cs -> length row = m -> length cs = m ->
  forall d0, add_ctrls row (is_carr c) c k (range m) d0 = Ok (lincomb d0 row cs).
Proof.
  intros H1 L1 L2. unfold range.
  assert (G : forall p i d0, i + p = m ->
     add_ctrls row (is_carr c) c k (seq i p) d0 = Ok (lincomb d0 (skipn i row) (skipn i cs))).
  { induction p; intros i d0 E; cbn [seq add_ctrls].
    - rewrite skipn_all2 by lia. now rewrite lincomb_nil.
    - destruct (nth_ex row i) as (u & Eu); [lia|].
      destruct (nth_ex cs i) as (cj & Ecj); [lia|].
      rewrite (get_ok _ _ _ Eu); cbn [bind]. rewrite (ctrl_at_spec _ _ _ _ H1 Ecj); cbn [bind].
      rewrite IHp by lia. rewrite (skipn_cons _ _ _ Eu), (skipn_cons _ _ _ Ecj). reflexivity. }
  intros d0. now rewrite (G m 0).
Qed.

Lemma drift_spec k d0 : nth_error (drift_ops n dr) k = Some d0 ->
  match is_dlist dr, dr with
  | true, DList l => get l k
  | false, DConst o => Ok o
  | _, _ => Raise TypeError
  end = Ok d0.
Proof.
  unfold drift_ops, is_dlist; destruct dr as [o|l]; intros H.
  - apply nth_error_In, repeat_spec in H; subst; auto.
  - rewrite firstn_all2 in H by (cbn in Hdrf; lia). now apply get_ok.
Qed.

Definition GenOk (d : dyn A) (i : nat) : Prop :=
  forall g, nth_error (gens_of s a) i = Some g ->
    nth_error (d_dg d) i = Some (Some g) /\
    (s_cache_ph s' = true -> exists l, d_pdg d = Some l /\ nth_error l i = Some (Some (with_phase s g))).

Lemma cache_ph_phase : s_cache_ph s' = true -> s_phase s <> None.
Proof. rewrite settled_cache_ph. destruct (s_phase s); congruence. Qed.

Lemma combine_ok k d :
  k < n -> Static d -> d_amps d = Some a ->
  exists d', combine_dyn_gen k d = Ok d' /\ Static d' /\ frame d d' /\ GenOk d' k /\
    (forall i, i <> k -> GenOk d i -> GenOk d' i) /\ d_dcur d' = d_dcur d.
Proof.
  intros Hk St Ea.
  destruct (slot k Hk) as (d0 & row & cs & t & g & E0 & E1 & E2 & E3 & L1 & L2 & Eg & Eg' & _).
  unfold combine_dyn_gen. rewrite (st_drift _ St); cbn [some_or bind].
  rewrite (st_tdd _ St). rewrite (drift_spec _ _ E0); cbn [bind].
  rewrite (st_nc _ St); cbn [some_or bind]. rewrite Ea; cbn [some_or bind].
  rewrite (get_ok _ _ _ E1); cbn [bind]. rewrite (st_ctrls _ St); cbn [some_or bind].
  rewrite (st_tdc _ St). rewrite (add_ctrls_spec _ _ _ E2 L1 L2); cbn [bind].
  rewrite <- Eg.
  rewrite set_ok by (rewrite (st_dg _ St); auto); cbn [bind].
  set (d1 := d <| d_dg := upd (d_dg d) k (Some g) |>).
  replace (s_cache_ph (d_set d1)) with (s_cache_ph s') by (cbn; now rewrite (st_set _ St)).
  destruct (s_cache_ph s') eqn:Ec.
  - pose proof (st_pdg _ St) as Hp; rewrite Ec in Hp; destruct Hp as (pl & Epl & Lpl).
    replace (d_pdg d1) with (Some pl) by (cbn; auto). cbn [some_or bind].
    rewrite set_ok by lia. cbn [bind].
    eexists; split; [reflexivity|]. split; [|split; [|split; [|split]]].
    + destruct St; constructor; cbn; auto; try (rewrite upd_length; auto; fail).
      rewrite Ec. exists (upd pl k (Some (apply_phase (d_set d) g))).
      split; auto. now rewrite upd_length.
    + repeat split.
    + intros g' Eq; rewrite Eg' in Eq; injection Eq as <-. cbn. split.
      * apply nth_upd_eq. rewrite (st_dg _ St); auto.
      * intros _. eexists; split; [reflexivity|]. rewrite nth_upd_eq by lia.
        rewrite (st_set _ St), apply_phase_spec, settled_with_phase; auto.
        rewrite settled_phase. now apply cache_ph_phase.
    + intros i Hi Hok g' Eq. destruct (Hok g' Eq) as [Q1 Q2]. cbn. split.
      * rewrite nth_upd_neq; auto.
      * intros _. destruct (Q2 Ec) as (l & El & Q3).
        rewrite Epl in El; injection El as <-.
        eexists; split; [reflexivity|]. rewrite nth_upd_neq; auto.
    + reflexivity.
  - eexists; split; [reflexivity|]. split; [|split; [|split; [|split]]].
    + destruct St; constructor; cbn; auto; try (rewrite upd_length; auto; fail).
    + repeat split.
    + intros g' Eq; rewrite Eg' in Eq; injection Eq as <-. cbn. split; [|congruence].
      apply nth_upd_eq. rewrite (st_dg _ St); auto.
    + intros i Hi Hok g' Eq. destruct (Hok g' Eq) as [Q1 Q2]. cbn. split; [|congruence].
      rewrite nth_upd_neq; auto.
    + reflexivity.
Qed.

(** After the first loop: all generators, no decomposition marked current. *)
Lemma loop_gens d : Static d -> d_amps d = Some a ->
  exists d', for_each (range n) step_dyn_gen d = Ok d' /\ Static d' /\ frame d d' /\
    (forall i, i < n -> GenOk d' i) /\
    (forall cur i, d_dcur d' = Some cur -> i < n -> nth_error cur i = Some false).
Proof.
  intros St Ea.
  destruct (for_range (fun k d' => Static d' /\ frame d d' /\ (forall i, i < k -> GenOk d' i) /\
     (forall cur i, d_dcur d' = Some cur -> i < k -> nth_error cur i = Some false))
     step_dyn_gen n d) as (d' & E & H).
  - unfold frame; splits; auto; intros; lia.
  - intros k d1 Hk (St1 & Fr1 & G1 & C1).
    assert (Ea1 : d_amps d1 = Some a) by (destruct Fr1 as [-> _]; auto).
    destruct (combine_ok k d1 Hk St1 Ea1) as (d2 & E2 & St2 & Fr2 & Gk & Gi & Ed).
    unfold step_dyn_gen. rewrite E2; cbn [bind].
    assert (G2 : forall i, i < 1 + k -> GenOk d2 i).
    { intros i Hi. destruct (Nat.eq_dec i k) as [->|]; auto. apply Gi; auto. apply G1; lia. }
    assert (Fr : frame d d2).
    { eapply frame_trans; eauto. }
    destruct (d_dcur d2) as [cur|] eqn:Ecur.
    + pose proof (st_dcur _ St2 _ Ecur) as Lc.
      rewrite set_ok by lia. cbn [bind].
      eexists; split; [reflexivity|]. split; [|split; [|split]].
      * destruct St2; constructor; cbn; auto.
        -- intros l [= <-]. rewrite upd_length; auto.
        -- intros HD. destruct (st_dlists0 HD) as (? & ?); split; [congruence|auto].
      * exact Fr.
      * exact G2.
      * cbn. intros cur' i [= <-] Hi. rewrite nth_upd.
        destruct (Nat.eq_dec i k); [destruct (lt_dec k (length cur)); [auto|lia]|].
        apply C1; [congruence|lia].
    + eexists; split; [reflexivity|]. splits; auto; congruence.
  - exists d'; intuition.
Qed.

(** *** Propagators *)

Definition DecOk (d : dyn A) (k : nat) : Prop :=
  forall t g, nth_error (s_tau s) k = Some t -> nth_error (gens_of s a) k = Some g ->
  let '(lam, V) := oeigh A g in
  (exists cur, d_dcur d = Some cur /\ nth_error cur k = Some true) /\
  nth_error (d_peig d) k = Some (Some (odiag A (eigphase lam t))) /\
  nth_error (d_evec d) k = Some (Some V) /\
  nth_error (d_fac d) k = Some (Some (divdiff (s_prec s) lam t)) /\
  (forall l, d_eadj d = Some l -> nth_error l k = Some (Some (odag A V))).

Definition PropOk (d : dyn A) (k : nat) : Prop :=
  nth_error (d_prop d) k = option_map Some (nth_error (props_of s a) k).

Definition PgOk (d : dyn A) (k j : nat) : Prop :=
  forall t g cs cj, nth_error (s_tau s) k = Some t -> nth_error (gens_of s a) k = Some g ->
    nth_error (ctrl_ops n c) k = Some cs -> nth_error cs j = Some cj ->
    exists pg row, d_pg d = Some pg /\ nth_error pg k = Some row /\
                   nth_error row j = Some (Some (xgrad t g cj)).

(** Everything but the decomposition lists, [prop] and [prop_grad]. *)
Definition same_gens (d d' : dyn A) : Prop :=
  d_dg d' = d_dg d /\ d_pdg d' = d_pdg d.

Lemma GenOk_same d d' i : same_gens d d' -> GenOk d i -> GenOk d' i.
Proof. unfold GenOk, same_gens; intros [-> ->]; auto. Qed.

Lemma phased_gen_ok d k g : Static d -> GenOk d k -> nth_error (gens_of s a) k = Some g ->
  get_phased_dyn_gen k d = Ok (with_phase s g).
Proof.
  intros St G Eg. destruct (G g Eg) as [G1 G2].
  unfold get_phased_dyn_gen. rewrite (st_set _ St), settled_phase.
  pose proof (st_pdg _ St) as Hp.
  destruct (s_phase s) eqn:Ep.
  - destruct (s_cache_ph s') eqn:Ec.
    + destruct (G2 eq_refl) as (l & -> & E). now apply getf_ok.
    + destruct Hp as [Hp|Hp]; [congruence|]. rewrite Hp.
      rewrite (getf_ok _ _ _ G1); cbn [bind].
      rewrite apply_phase_spec, settled_with_phase; auto. rewrite settled_phase; congruence.
  - rewrite (getf_ok _ _ _ G1). unfold with_phase; now rewrite Ep.
Qed.

Lemma phased_ctrl_ok d k j cs cj : Static d ->
  nth_error (ctrl_ops n c) k = Some cs -> nth_error cs j = Some cj ->
  get_phased_ctrl_dyn_gen k j d = Ok (with_phase s cj).
Proof.
  intros St E1 E2. unfold get_phased_ctrl_dyn_gen.
  rewrite (st_pctrl _ St), (st_tdc _ St), (st_ctrls _ St), (st_set _ St), settled_phase.
  destruct (s_cache_ph s') eqn:Ec.
  - rewrite <- settled_with_phase, <- apply_phase_spec
      by (rewrite settled_phase; now apply cache_ph_phase).
    unfold ctrl_ops, phased_ctrls, is_carr in *. destruct c as [l|rows]; cbn.
    + apply nth_error_In, repeat_spec in E1; subst. apply get_ok.
      rewrite nth_error_map, E2; reflexivity.
    + destruct Hcf as [E F]. rewrite firstn_all2 in E1 by lia.
      unfold get at 1. rewrite nth_error_map, E1; cbn. apply get_ok.
      rewrite nth_error_map, E2; reflexivity.
  - cbn [some_or bind]. rewrite (ctrl_at_spec _ _ _ _ E1 E2); cbn [bind].
    unfold with_phase at 1. destruct (s_phase s) eqn:Ep; [|reflexivity].
    rewrite apply_phase_spec by (rewrite settled_phase; congruence).
    rewrite settled_with_phase. unfold with_phase; now rewrite Ep.
Qed.

Lemma tau_ok d k t : Static d -> nth_error (s_tau s) k = Some t -> tau_at k d = Ok t.
Proof. intros St E; unfold tau_at; rewrite (st_set _ St), settled_tau. now apply get_ok. Qed.

(** A state reached from [d] by refreshing decompositions only. *)
Definition dec_step (d d' : dyn A) : Prop :=
  frame d d' /\ same_gens d d' /\ d_prop d' = d_prop d /\ d_pg d' = d_pg d /\ d_fwd d' = d_fwd d /\
  d_onwd d' = d_onwd d /\ d_onto d' = d_onto d.

Lemma dec_step_refl d : dec_step d d.
Proof. repeat split. Qed.

Lemma spectral_ok d k : k < n -> s_prop s = Diag -> Static d -> GenOk d k ->
  exists d', spectral_decomp k d = Ok d' /\ Static d' /\ dec_step d d' /\ DecOk d' k /\
    (forall i, i <> k -> DecOk d i -> DecOk d' i) /\
    (forall cur cur' i, i <> k -> d_dcur d = Some cur -> d_dcur d' = Some cur' ->
       nth_error cur' i = nth_error cur i).
Proof.
  intros Hk HD St G.
  destruct (slot k Hk) as (d0 & row & cs & t & g & E0 & E1 & E2 & E3 & L1 & L2 & _ & Eg & Ep).
  unfold spectral_decomp. rewrite (st_set _ St), settled_class, (Hdiagc HD).
  destruct (G g Eg) as [G1 _]. rewrite (getf_ok _ _ _ G1); cbn [bind].
  destruct (oeigh A g) as [lam V] eqn:Eig.
  rewrite (tau_ok _ _ _ St E3); cbn [bind].
  destruct (st_dlists _ St HD) as (Hcur & Lp & Lv & Lf).
  destruct (d_dcur d) as [cur|] eqn:Ecur; [|congruence]. cbn [some_or bind].
  pose proof (st_dcur _ St _ Ecur) as Lc.
  rewrite !set_ok by lia. cbn [bind].
  rewrite prop_eig_spec, factors_spec, settled_prec.
  set (d1 := d <| d_dcur := _ |> <| d_fac := _ |> <| d_peig := _ |> <| d_evec := _ |>).
  assert (St1 : Static d1).
  { destruct St; constructor; cbn; auto.
    - intros l [= <-]; rewrite upd_length; auto.
    - intros _. rewrite !upd_length. repeat split; auto; congruence. }
  assert (D1 : forall (ea : option (buf A)), (forall l, ea = Some l -> nth_error l k = Some (Some (odag A V))) ->
     DecOk (d1 <| d_eadj := ea |>) k).
  { intros ea Hea t' g' Et' Eg'. rewrite E3 in Et'; injection Et' as <-.
    rewrite Eg in Eg'; injection Eg' as <-. rewrite Eig. cbn.
    split; [eexists; split; [reflexivity|apply nth_upd_eq; lia]|].
    rewrite !nth_upd_eq by lia. repeat split; auto. }
  assert (Di : forall i ea, i <> k -> (forall l, ea = Some l -> exists l0, d_eadj d = Some l0 /\ nth_error l i = nth_error l0 i) ->
      DecOk d i -> DecOk (d1 <| d_eadj := ea |>) i).
  { intros i ea Hi Hea Hd t' g' Et' Eg'. specialize (Hd t' g' Et' Eg').
    destruct (oeigh A g') as [lam' V']. cbn.
    destruct Hd as ((cur0 & Ec0 & Q0) & Q1 & Q2 & Q3 & Q4).
    rewrite Ecur in Ec0; injection Ec0 as <-.
    rewrite !nth_upd_neq by auto.
    split; [eexists; split; [reflexivity|rewrite nth_upd_neq; auto]|].
    repeat split; auto. intros l El. destruct (Hea l El) as (l0 & El0 & ->). auto. }
  replace (d_eadj d1) with (d_eadj d) by reflexivity.
  destruct (d_eadj d) as [l|] eqn:Eadj.
  - pose proof (st_eadj _ St HD _ Eadj) as Ll.
    rewrite set_ok by lia. cbn [bind]. eexists; split; [reflexivity|].
    split; [|split; [|split; [|split]]].
    + destruct St1; constructor; cbn; auto.
      intros _ l' [= <-]; rewrite upd_length; auto.
    + repeat split.
    + apply D1. intros l' [= <-]. apply nth_upd_eq; lia.
    + intros i Hi. apply Di; auto. intros l' [= <-]. exists l; split; auto. apply nth_upd_neq; auto.
    + cbn. intros cur0 cur' i Hi [= ->] [= <-]. apply nth_upd_neq; auto.
  - eexists; split; [reflexivity|]. split; [|split; [|split; [|split]]]; auto.
    + repeat split.
    + replace d1 with (d1 <| d_eadj := None |>).
      * apply D1; congruence.
      * subst d1. destruct d; cbn in *; subst; reflexivity.
    + intros i Hi Hd. replace d1 with (d1 <| d_eadj := None |>).
      * apply Di; auto; congruence.
      * subst d1. destruct d; cbn in *; subst; reflexivity.
    + cbn. intros cur0 cur' i Hi [= ->] [= <-]. apply nth_upd_neq; auto.
Qed.

(** What the second loop needs to know about a slot before it is visited. *)
Definition DecReady (d : dyn A) (k : nat) : Prop :=
  s_prop s = Diag ->
  DecOk d k \/ (exists cur, d_dcur d = Some cur /\ nth_error cur k = Some false).

Definition DecKeep (d d' : dyn A) (k : nat) : Prop :=
  (forall i, DecOk d i -> DecOk d' i) /\
  (forall i, i <> k -> DecReady d i -> DecReady d' i).

Lemma ensure_ok d k : k < n -> s_prop s = Diag -> Static d -> GenOk d k -> DecReady d k ->
  exists d', ensure_decomp_curr k d = Ok d' /\ Static d' /\ dec_step d d' /\ DecOk d' k /\ DecKeep d d' k.
Proof.
  intros Hk HD St G R. unfold ensure_decomp_curr.
  destruct (R HD) as [Hd|(cur & Ec & Ek)].
  - destruct (slot k Hk) as (d0 & row & cs & t & g & E0 & E1 & E2 & E3 & L1 & L2 & _ & Eg & Ep).
    pose proof (Hd t g E3 Eg) as Hd'. destruct (oeigh A g) as [lam V].
    destruct Hd' as ((cur & Ec & Ek) & _). rewrite Ec.
    rewrite (get_ok _ _ _ Ek); cbn [bind].
    exists d; splits; auto using dec_step_refl. split; auto.
  - rewrite Ec. rewrite (get_ok _ _ _ Ek); cbn [bind].
    destruct (spectral_ok d k Hk HD St G) as (d' & E & St' & Ds & Dk & Di & Dc).
    exists d'; splits; auto. split.
    + intros i Hi. destruct (Nat.eq_dec i k) as [->|]; auto.
    + intros i Hi Hr _. destruct (Hr HD) as [Hr'|(cur0 & Ec0 & Ek0)]; [left; auto|right].
      rewrite Ec in Ec0; injection Ec0 as <-.
      destruct (d_dcur d') as [cur'|] eqn:Ecur'.
      * exists cur'; split; auto. rewrite (Dc cur cur' i Hi Ec eq_refl); auto.
      * destruct (st_dlists _ St' HD); congruence.
Qed.

Lemma eadj_ok d k t g lam V : Static d -> DecOk d k -> nth_error (s_tau s) k = Some t ->
  nth_error (gens_of s a) k = Some g -> oeigh A g = (lam, V) ->
  get_eadj k d = Ok (odag A V).
Proof.
  intros St Hd Et Eg Ev. specialize (Hd t g Et Eg). rewrite Ev in Hd.
  destruct Hd as (_ & _ & Q2 & _ & Q4). unfold get_eadj.
  destruct (d_eadj d) as [l|]; [apply getf_ok; auto|].
  rewrite (getf_ok _ _ _ Q2); reflexivity.
Qed.

Lemma propagator_ok d k t g : k < n -> Static d -> GenOk d k -> DecReady d k ->
  nth_error (s_tau s) k = Some t -> nth_error (gens_of s a) k = Some g ->
  exists d', compute_propagator k d = Ok (d', propagator s t g) /\ Static d' /\ dec_step d d' /\
    DecKeep d d' k /\ (s_prop s = Diag -> DecOk d' k).
Proof.
  intros Hk St G R Et Eg. unfold compute_propagator. rewrite (st_set _ St), settled_prop.
  case_eq (s_prop s); intros EP.
  2:{ destruct (ensure_ok d k Hk EP St G R) as (d' & -> & St' & Ds & Dk & Kp). cbn [bind].
      pose proof (Dk t g Et Eg) as Dk'. pose proof (Hdiag EP a k t g Ha Et Eg) as Hx.
      unfold diag_expm in Hx. destruct (oeigh A g) as [lam V] eqn:Ev.
      destruct Dk' as (_ & Q1 & Q2 & _ & _).
      rewrite (getf_ok _ _ _ Q2); cbn [bind]. rewrite (getf_ok _ _ _ Q1); cbn [bind].
      rewrite (eadj_ok _ _ _ _ _ _ St' Dk Et Eg Ev); cbn [bind].
      rewrite Hx. exists d'; splits; auto. }
  all: rewrite (phased_gen_ok _ _ _ St G Eg); cbn [bind];
    rewrite (tau_ok _ _ _ St Et); cbn [bind];
    exists d; splits; auto using dec_step_refl; [split; auto|congruence].
Qed.

Lemma prop_grad_ok d k j t g cs cj : k < n -> s_prop s <> Approx ->
  Static d -> GenOk d k -> DecReady d k ->
  nth_error (s_tau s) k = Some t -> nth_error (gens_of s a) k = Some g ->
  nth_error (ctrl_ops n c) k = Some cs -> nth_error cs j = Some cj ->
  exists d', compute_prop_grad k j d = Ok (d', (propagator s t g, xgrad t g cj)) /\
    Static d' /\ dec_step d d' /\ DecKeep d d' k /\ (s_prop s = Diag -> DecOk d' k).
Proof.
  intros Hk HA St G R Et Eg Ecs Ecj. unfold compute_prop_grad. rewrite (st_set _ St), settled_prop.
  pose proof (phased_gen_ok _ _ _ St G Eg) as H1.
  pose proof (phased_ctrl_ok _ _ _ _ _ St Ecs Ecj) as H2.
  pose proof (tau_ok _ _ _ St Et) as H3.
  assert (SL : slot_at s n m a k j t g cj) by (split; [auto|split; [auto|split; [auto|exists c, cs; auto]]]).
  case_eq (s_prop s); intros EP; [congruence| | |].
  - destruct (ensure_ok d k Hk EP St G R) as (d1 & -> & St1 & Ds1 & Dk1 & Kp1). cbn [bind].
    assert (G1 : GenOk d1 k) by (eapply GenOk_same; [apply Ds1|auto]).
    destruct (propagator_ok d1 k t g Hk St1 G1 ltac:(left; auto) Et Eg)
      as (d2 & E2 & St2 & Ds2 & Kp2 & Dk2).
    rewrite E2; cbn [bind]. specialize (Dk2 EP).
    pose proof (Dk2 t g Et Eg) as Dk'.
    unfold xgrad; rewrite ?EP.
    destruct (oeigh A g) as [lam V] eqn:Ev.
    rewrite (eadj_ok _ _ _ _ _ _ St2 Dk2 Et Eg Ev); cbn [bind].
    rewrite (phased_ctrl_ok _ _ _ _ _ St2 Ecs Ecj); cbn [bind].
    destruct Dk' as (_ & Q1 & Q2 & Q3 & _).
    rewrite (getf_ok _ _ _ Q2); cbn [bind]. rewrite (tau_ok _ _ _ St2 Et); cbn [bind].
    rewrite (getf_ok _ _ _ Q3); cbn [bind].
    eexists; split; [reflexivity|]. splits; auto.
    + destruct Ds1 as (F1 & (S1 & S1') & P1 & P2 & P3 & P4 & P5).
      destruct Ds2 as (F2 & (S2 & S2') & R1 & R2 & R3 & R4 & R5).
      unfold dec_step, same_gens. split; [eapply frame_trans; eauto|]. splits; congruence.
    + destruct Kp1, Kp2; split; auto.
  - rewrite H1; cbn [bind]. rewrite H2; cbn [bind]. rewrite H3; cbn [bind].
    pose proof (Haug EP a k j t g cj SL) as HX. unfold aug_expm, phased in HX. rewrite HX. unfold xgrad; rewrite ?EP.
    eexists; split; [reflexivity|]. splits; auto using dec_step_refl; [split; auto|congruence].
  - rewrite H1; cbn [bind]. rewrite H3; cbn [bind]. rewrite H2; cbn [bind].
    pose proof (Hfr EP a k j t g cj SL) as HX. unfold frechet_expm, phased in HX.
    unfold xgrad; rewrite ?EP. rewrite (surjective_pairing (ofrechet A _ _)), HX.
    eexists; split; [reflexivity|]. splits; auto using dec_step_refl; [split; auto|congruence].
Qed.

Lemma PropOk_at d k t g : nth_error (s_tau s) k = Some t -> nth_error (gens_of s a) k = Some g ->
  nth_error (d_prop d) k = Some (Some (propagator s t g)) -> PropOk d k.
Proof.
  intros Et Eg H. unfold PropOk. rewrite H. unfold props_of, propagators.
  now rewrite (map2_nth _ _ _ _ _ _ Et Eg).
Qed.

(** Generators hold, slots before [k] have their propagators and gradients. *)
Record Mid (d0 : dyn A) (k : nat) (d : dyn A) : Prop := {
  mid_st : Static d;
  mid_frame : frame d0 d;
  mid_gen : forall i, i < n -> GenOk d i;
  mid_ready : forall i, k <= i -> i < n -> DecReady d i;
  mid_dec : s_prop s = Diag -> forall i, i < k -> DecOk d i;
  mid_prop : forall i, i < k -> PropOk d i;
  mid_pg : exactc = true -> forall i j, i < k -> j < m -> PgOk d i j;
}.


Lemma Static_prop d l : Static d -> length l = n -> Static (d <| d_prop := l |>).
Proof. intros [] L; constructor; cbn; auto. Qed.

Lemma Static_pg d pg : Static d -> length pg = n -> Forall (fun r => length r = m) pg ->
  Static (d <| d_pg := Some pg |>).
Proof. intros [] L F; constructor; cbn; eauto. Qed.

Lemma set_pg_ok d k j g : exactc = true -> k < n -> j < m -> Static d ->
  exists pg row, d_pg d = Some pg /\ nth_error pg k = Some row /\ length row = m /\ length pg = n /\
    set_pg d k j g = Ok (d <| d_pg := Some (upd pg k (upd row j (Some g))) |>) /\
    Static (d <| d_pg := Some (upd pg k (upd row j (Some g))) |>).
Proof.
  intros He Hk Hj St. destruct (st_pg _ St He) as (pg & Epg & L & F).
  destruct (nth_ex pg k) as (row & Er); [lia|].
  assert (Lr : length row = m) by (rewrite Forall_forall in F; apply F; eapply nth_error_In; eauto).
  exists pg, row; splits; auto.
  - unfold set_pg. rewrite Epg; cbn [some_or bind]. rewrite (get_ok _ _ _ Er); cbn [bind].
    rewrite set_ok by lia; cbn [bind]. rewrite set_ok by lia; reflexivity.
  - apply Static_pg; auto; [now rewrite upd_length|].
    apply Forall_upd; auto. now rewrite upd_length.
Qed.

Lemma step_prop_ok d0 k d : k < n -> Mid d0 k d ->
  exists d', step_prop m k d = Ok d' /\ Mid d0 (1 + k) d'.
Proof.
  intros Hk M. pose proof (mid_st _ _ _ M) as St.
  destruct (slot k Hk) as (dd & row & cs & t & g & E0 & E1 & E2 & E3 & L1 & L2 & _ & Eg & Ep).
  unfold step_prop. rewrite (st_set _ St), settled_prop, settled_cache_pg.
  case_eq (grad_exact (s_prop s) && s_cache_pg s); intros He.
  - assert (HA : s_prop s <> Approx) by (intros HA; rewrite HA in He; discriminate).
    assert (Hm0 : 0 < m).
    { apply Hm. destruct (s_cache_pg s); auto. rewrite andb_false_r in He; discriminate. }
    set (body := fun (j : nat) (d : dyn A) => _).
    destruct (for_range (fun j d' => Static d' /\ frame d0 d' /\ (forall i, i < n -> GenOk d' i) /\
        (forall i, k < i -> i < n -> DecReady d' i) /\ DecReady d' k /\
        (s_prop s = Diag -> forall i, i < k -> DecOk d' i) /\
        (forall i, i < k -> PropOk d' i) /\
        (forall i j, i < k -> j < m -> PgOk d' i j) /\
        (0 < j -> (s_prop s = Diag -> DecOk d' k) /\ PropOk d' k) /\
        (forall j', j' < j -> PgOk d' k j')) body m d) as (d' & E & H).
    + destruct M; splits; auto; try (intros; lia).
      intros; apply mid_ready0; lia.
    + intros j d1 Hj (St1 & Fr1 & Gen1 & Rd1 & Rk1 & Dec1 & Pr1 & Pg1 & Cur1 & Row1).
      destruct (nth_ex cs j) as (cj & Ecj); [lia|].
      destruct (prop_grad_ok d1 k j t g cs cj Hk HA St1 (Gen1 k Hk) Rk1 E3 Eg E2 Ecj)
        as (d2 & E4 & St2 & Ds2 & [Ka Kb] & Dk2).
      unfold body. rewrite E4; cbn [bind].
      set (d3 := if j =? 0 then d2 <| d_prop := upd (d_prop d2) k (Some (propagator s t g)) |> else d2).
      assert (E5 : (if j =? 0 then l <- set (d_prop d2) k (Some (propagator s t g));; Ok (d2 <| d_prop := l |>)
                    else Ok d2) = Ok d3).
      { subst d3. destruct (j =? 0); auto. rewrite set_ok by (rewrite (st_prop _ St2); auto). reflexivity. }
      rewrite E5; cbn [bind].
      assert (St3 : Static d3).
      { subst d3. destruct (j =? 0); auto. apply Static_prop; auto. rewrite upd_length; apply St2. }
      destruct (set_pg_ok d3 k j (xgrad t g cj) He Hk Hj St3) as (pg & prow & Epg & Erow & Lrow & Lpg & -> & St4).
      eexists; split; [reflexivity|].
      assert (Epg1 : d_pg d1 = Some pg).
      { destruct Ds2 as (_ & _ & _ & <- & _). subst d3; destruct (j =? 0); auto. }
      assert (Pd : forall i, i <> k -> nth_error (d_prop d3) i = nth_error (d_prop d1) i).
      { intros i Hi. destruct Ds2 as (_ & _ & Edp & _). subst d3; destruct (j =? 0); cbn; rewrite ?nth_upd_neq by auto; now rewrite Edp. }
      assert (Dd : forall i, DecOk d2 i ->
         DecOk (d3 <| d_pg := Some (upd pg k (upd prow j (Some (xgrad t g cj)))) |>) i).
      { intros i Hi. subst d3; destruct (j =? 0); exact Hi. }
      assert (Rd : forall i, DecReady d2 i ->
         DecReady (d3 <| d_pg := Some (upd pg k (upd prow j (Some (xgrad t g cj)))) |>) i).
      { intros i Hi. subst d3; destruct (j =? 0); exact Hi. }
      splits.
      * exact St4.
      * eapply frame_trans; [exact Fr1|]. destruct Ds2 as (F2 & _).
        subst d3; destruct (j =? 0); exact F2.
      * intros i Hi. assert (GenOk d2 i) by (eapply GenOk_same; [apply Ds2|auto]).
        subst d3; destruct (j =? 0); auto.
      * intros i H1 H2. apply Rd, Kb; [lia|auto].
      * intros HD. left. apply Dd. auto.
      * intros HD i Hi. apply Dd, Ka; auto.
      * intros i Hi. unfold PropOk in *. cbn. rewrite Pd by lia. apply Pr1; auto.
      * intros i j' Hi Hj' t' g' cs' cj' Et' Eg' Ecs' Ecj'.
        destruct (Pg1 i j' Hi Hj' t' g' cs' cj' Et' Eg' Ecs' Ecj') as (pg' & row' & Q1 & Q2 & Q3).
        rewrite Epg1 in Q1; injection Q1 as <-.
        cbn. eexists _, row'; split; [reflexivity|]. rewrite nth_upd_neq by lia; auto.
      * intros _. split; [intros HD; apply Dd; auto|].
        apply (PropOk_at _ _ _ _ E3 Eg). cbn.
        destruct (j =? 0) eqn:Ej.
        -- subst d3. cbn. apply nth_upd_eq. rewrite (st_prop _ St2); auto.
        -- apply Nat.eqb_neq in Ej. destruct (Cur1 ltac:(lia)) as (_ & Q).
           unfold PropOk in Q. subst d3. destruct Ds2 as (_ & _ & -> & _). rewrite Q, Ep; auto.
      * intros j' Hj' t' g' cs' cj' Et' Eg' Ecs' Ecj'.
        rewrite E3 in Et'; injection Et' as <-. rewrite Eg in Eg'; injection Eg' as <-.
        rewrite E2 in Ecs'; injection Ecs' as <-.
        cbn. eexists _, _; split; [reflexivity|]. split; [apply nth_upd_eq; lia|].
        destruct (Nat.eq_dec j' j) as [->|].
        -- rewrite Ecj in Ecj'; injection Ecj' as <-. apply nth_upd_eq; lia.
        -- rewrite nth_upd_neq by auto.
           destruct (Row1 j' ltac:(lia) t g cs cj' E3 Eg E2 Ecj') as (pg' & row' & Q1 & Q2 & Q3).
           rewrite Epg1 in Q1; injection Q1 as <-. rewrite Erow in Q2; injection Q2 as <-. auto.
    + exists d'; split; auto.
      destruct H as (St1 & Fr1 & Gen1 & Rd1 & Rk1 & Dec1 & Pr1 & Pg1 & Cur1 & Row1).
      destruct (Cur1 Hm0) as [Dk Pk].
      constructor; auto.
      * intros HD i Hi. destruct (Nat.eq_dec i k) as [->|]; auto. apply Dec1; auto; lia.
      * intros i Hi. destruct (Nat.eq_dec i k) as [->|]; auto. apply Pr1; lia.
      * intros _ i j Hi Hj. destruct (Nat.eq_dec i k) as [->|]; auto. apply Pg1; lia.
  - destruct (propagator_ok d k t g Hk St (mid_gen _ _ _ M k Hk) (mid_ready _ _ _ M k ltac:(lia) Hk) E3 Eg)
      as (d1 & E & St1 & Ds1 & [Ka Kb] & Dk1).
    rewrite E; cbn [bind]. rewrite set_ok by (rewrite (st_prop _ St1); auto). cbn [bind].
    eexists; split; [reflexivity|]. constructor.
    + apply Static_prop; auto. rewrite upd_length; apply St1.
    + eapply frame_trans; [apply M|]. apply Ds1.
    + intros i Hi. apply (GenOk_same d); [apply Ds1|]. apply M; auto.
    + intros i Hi Hi'. apply (Kb i); [lia|]. apply M; auto; lia.
    + intros HD i Hi. destruct (Nat.eq_dec i k) as [->|]; [apply (Dk1 HD)|].
      apply (Ka i). apply (mid_dec _ _ _ M HD); lia.
    + intros i Hi. destruct (Nat.eq_dec i k) as [->|].
      * apply (PropOk_at _ _ _ _ E3 Eg). cbn. apply nth_upd_eq. rewrite (st_prop _ St1); auto.
      * pose proof (mid_prop _ _ _ M i ltac:(lia)) as Q. unfold PropOk in *. cbn.
        rewrite nth_upd_neq by auto. destruct Ds1 as (_ & _ & -> & _). auto.
    + congruence.
Qed.

(** *** Evolution lists *)

Definition FwdOk (d : dyn A) (k : nat) : Prop :=
  nth_error (d_fwd d) k = Some (Some (evolve (firstn k (props_of s a)) (s_initial s))).
Definition OnwdOk (d : dyn A) (k : nat) : Prop :=
  exists l p, d_onwd d = Some l /\ nth_error l k = Some (Some p) /\
              product (skipn k (props_of s a)) = Some p.
Definition OntoOk (d : dyn A) (k : nat) : Prop :=
  exists l, d_onto d = Some l /\
            nth_error l k = Some (Some (devolve (undo_target s) (skipn k (props_of s a)))).

(** Every buffer holds the specified values for [a]. *)
Record Cur (d : dyn A) : Prop := {
  cur_gen : forall i, i < n -> GenOk d i;
  cur_dec : s_prop s = Diag -> forall i, i < n -> DecOk d i;
  cur_prop : forall i, i < n -> PropOk d i;
  cur_pg : exactc = true -> forall i j, i < n -> j < m -> PgOk d i j;
  cur_fwd : forall i, i <= n -> FwdOk d i;
  cur_onwd : s_fid s = FTrace -> forall i, i < n -> OnwdOk d i;
  cur_onto : s_fid s = FUnit -> forall i, i <= n -> OntoOk d i;
}.

Lemma prop_at d k p : PropOk d k -> nth_error (props_of s a) k = Some p -> getf (d_prop d) k = Ok p.
Proof. unfold PropOk; intros H E; rewrite E in H; cbn in H. now apply getf_ok. Qed.

Lemma prop_ex k : k < n -> exists p, nth_error (props_of s a) k = Some p.
Proof. intros; apply nth_ex. rewrite props_length; auto. Qed.

Lemma Mid_fwd d0 k d l : Mid d0 k d -> length l = S n -> nth_error l 0 = Some (Some (s_initial s)) ->
  Mid d0 k (d <| d_fwd := l |>).
Proof.
  intros [] L E; constructor; cbn; auto. destruct mid_st0; constructor; cbn; auto.
Qed.

Lemma loop_fwd d0 d : Mid d0 n d ->
  exists d', for_each (range n) step_fwd d = Ok d' /\ Mid d0 n d' /\ (forall i, i <= n -> FwdOk d' i).
Proof.
  intros M.
  destruct (for_range (fun k d' => Mid d0 n d' /\ (forall i, i <= k -> FwdOk d' i)) step_fwd n d)
    as (d' & E & H).
  - split; auto. intros i Hi. assert (i = 0) as -> by lia. apply (st_fwd0 _ (mid_st _ _ _ M)).
  - intros k d1 Hk (M1 & F1). unfold step_fwd.
    destruct (prop_ex k Hk) as (p & Ep).
    rewrite (prop_at _ _ _ (mid_prop _ _ _ M1 k Hk) Ep); cbn [bind].
    rewrite (getf_ok _ _ _ (F1 k (le_n _))); cbn [bind].
    rewrite set_ok by (rewrite (st_fwd _ (mid_st _ _ _ M1)); lia). cbn [bind].
    eexists; split; [reflexivity|]. split.
    + apply Mid_fwd; auto; [rewrite upd_length; apply (mid_st _ _ _ M1)|].
      rewrite nth_upd_neq by lia. apply (mid_st _ _ _ M1).
    + intros i Hi. unfold FwdOk in *; cbn.
      destruct (Nat.eq_dec i (k + 1)) as [->|].
      * rewrite nth_upd_eq by (rewrite (st_fwd _ (mid_st _ _ _ M1)); lia).
        replace (k + 1) with (S k) by lia. rewrite (firstn_S _ _ _ Ep), evolve_snoc. reflexivity.
      * rewrite nth_upd_neq by auto. apply F1; lia.
  - exists d'; auto.
Qed.

Lemma Mid_onwd d0 k d l : Mid d0 k d -> length l = n -> Mid d0 k (d <| d_onwd := Some l |>).
Proof. intros [] L; constructor; cbn; auto. destruct mid_st0; constructor; cbn; eauto. Qed.

Lemma Mid_onto d0 k d l : Mid d0 k d -> length l = S n -> nth_error l n = Some (Some (undo_target s)) ->
  Mid d0 k (d <| d_onto := Some l |>).
Proof. intros [] L; constructor; cbn; auto. destruct mid_st0; constructor; cbn; eauto. Qed.

Lemma loop_onwd d0 d : s_fid s = FTrace -> Mid d0 n d -> (forall i, i <= n -> FwdOk d i) ->
  exists d', (p <- get (d_prop d) (n - 1);;
             ow <- some_or TypeError (d_onwd d);;
             l <- set ow (n - 1) p;;
             for_each (range_down (n - 1)) step_onwd (d <| d_onwd := Some l |>)) = Ok d' /\
    Mid d0 n d' /\ (forall i, i <= n -> FwdOk d' i) /\ (forall i, i < n -> OnwdOk d' i).
Proof.
  intros HF M F.
  destruct (prop_ex (n - 1) ltac:(lia)) as (p & Ep).
  pose proof (mid_prop _ _ _ M (n - 1) ltac:(lia)) as Hp. unfold PropOk in Hp. rewrite Ep in Hp; cbn in Hp.
  rewrite (get_ok _ _ _ Hp); cbn [bind].
  destruct (st_onwd _ (mid_st _ _ _ M) HF) as (ow & Eow & Low).
  rewrite Eow; cbn [some_or bind]. rewrite set_ok by lia; cbn [bind].
  destruct (for_down (fun k d' => Mid d0 n d' /\ (forall i, i <= n -> FwdOk d' i) /\
      (forall i, k <= i -> i < n -> OnwdOk d' i)) step_onwd (n - 1)
      (d <| d_onwd := Some (upd ow (n - 1) (Some p)) |>)) as (d' & E & H).
  - splits.
    + apply Mid_onwd; auto. now rewrite upd_length.
    + auto.
    + intros i H1 H2. assert (i = n - 1) as -> by lia.
      exists (upd ow (n - 1) (Some p)), p. splits; auto.
      * apply nth_upd_eq; lia.
      * rewrite (skipn_cons _ _ _ Ep). rewrite skipn_all2 by (rewrite props_length; lia). reflexivity.
  - intros k d1 Hk (M1 & F1 & O1). unfold step_onwd.
    destruct (prop_ex k ltac:(lia)) as (pk & Epk).
    destruct (O1 (1 + k) ltac:(lia) ltac:(lia)) as (l & q & El & Eq & Epr).
    rewrite El; cbn [some_or bind]. replace (k + 1) with (1 + k) by lia.
    rewrite (getf_ok _ _ _ Eq); cbn [bind].
    rewrite (prop_at _ _ _ (mid_prop _ _ _ M1 k ltac:(lia)) Epk); cbn [bind].
    destruct (st_onwd _ (mid_st _ _ _ M1) HF) as (ow1 & Eow1 & Low1).
    rewrite El in Eow1; injection Eow1 as <-.
    rewrite set_ok by lia; cbn [bind].
    eexists; split; [reflexivity|]. splits.
    + apply Mid_onwd; auto. now rewrite upd_length.
    + auto.
    + intros i H1 H2. destruct (Nat.eq_dec i k) as [->|].
      * eexists _, _; splits; [reflexivity|apply nth_upd_eq; lia|].
        rewrite (skipn_cons _ _ _ Epk). now apply product_cons.
      * destruct (O1 i ltac:(lia) H2) as (l' & q' & El' & Eq' & Epr').
        rewrite El in El'; injection El' as <-.
        exists (upd l k (Some (omul A q pk))), q'; splits; auto. rewrite nth_upd_neq; auto.
  - exists d'; splits; auto; try apply H. intros; apply H; lia.
Qed.

Lemma loop_onto d0 d : s_fid s = FUnit -> Mid d0 n d -> (forall i, i <= n -> FwdOk d i) ->
  exists d', for_each (range_down n) step_onto d = Ok d' /\
    Mid d0 n d' /\ (forall i, i <= n -> FwdOk d' i) /\ (forall i, i <= n -> OntoOk d' i).
Proof.
  intros HF M F.
  destruct (for_down (fun k d' => Mid d0 n d' /\ (forall i, i <= n -> FwdOk d' i) /\
      (forall i, k <= i -> i <= n -> OntoOk d' i)) step_onto n d) as (d' & E & H).
  - splits; auto. intros i H1 H2. assert (i = n) as -> by lia.
    destruct (st_onto _ (mid_st _ _ _ M) HF) as (l & El & Ll & En).
    exists l; split; auto. rewrite skipn_all2 by (rewrite props_length; lia). exact En.
  - intros k d1 Hk (M1 & F1 & O1). unfold step_onto.
    destruct (prop_ex k ltac:(lia)) as (pk & Epk).
    destruct (O1 (1 + k) ltac:(lia) ltac:(lia)) as (l & El & Eq).
    rewrite El; cbn [some_or bind]. replace (k + 1) with (1 + k) by lia.
    rewrite (getf_ok _ _ _ Eq); cbn [bind].
    rewrite (prop_at _ _ _ (mid_prop _ _ _ M1 k ltac:(lia)) Epk); cbn [bind].
    destruct (st_onto _ (mid_st _ _ _ M1) HF) as (l1 & El1 & Ll1 & En1).
    rewrite El in El1; injection El1 as <-.
    rewrite set_ok by lia; cbn [bind].
    eexists; split; [reflexivity|]. splits.
    + apply Mid_onto; auto; [now rewrite upd_length|]. rewrite nth_upd_neq by lia; auto.
    + auto.
    + intros i H1 H2. destruct (Nat.eq_dec i k) as [->|].
      * eexists; split; [reflexivity|]. rewrite nth_upd_eq by lia.
        rewrite (skipn_cons _ _ _ Epk), devolve_cons. reflexivity.
      * destruct (O1 i ltac:(lia) H2) as (l' & El' & Eq').
        rewrite El in El'; injection El' as <-.
        eexists; split; [reflexivity|]. rewrite nth_upd_neq; auto.
  - exists d'; splits; auto; try apply H. intros; apply H; lia.
Qed.

(** What [recompute_evolution] does to the rest of the state. *)
Definition bump_rec (st : option stats) : option stats :=
  match st with Some st => Some (st <| st_recompute := S (st_recompute st) |>) | None => None end.

Lemma num_ctrls_ok d : Static d -> get_num_ctrls d = Ok (d, m).
Proof.
  intros St. unfold get_num_ctrls. rewrite (st_set _ St), settled_class.
  assert (E : (match s_class s with
               | GenMat => d
               | Unitary => if d_mapped d then d else map_dyn_gen_to_ham d
               end) = d).
  { destruct (s_class s) eqn:Ec; auto. rewrite (st_map _ St Ec); auto. }
  rewrite E, (st_nc _ St). reflexivity.
Qed.

Lemma recompute_ok d : Static d -> d_amps d = Some a ->
  exists d', recompute_evolution d = Ok d' /\ Static d' /\ Cur d' /\
    d_amps d' = Some a /\ d_evo_cur d' = d_evo_cur d /\ d_fidst d' = d_fidst d /\
    d_init d' = d_init d /\ d_stats d' = bump_rec (d_stats d) /\
    d_dg_q d' = None /\ d_prop_q d' = None /\ d_pg_q d' = None /\
    d_fwd_q d' = None /\ d_onwd_q d' = None /\ d_onto_q d' = None.
Proof.
  intros St Ea. unfold recompute_evolution.
  rewrite (num_ctrls_ok _ St); cbn [bind].
  replace (n_ts d) with n by (unfold n_ts; rewrite (st_set _ St), settled_tau; auto).
  set (d1 := d <| d_dg_q := None |> <| d_prop_q := None |> <| d_pg_q := None |>
             <| d_fwd_q := None |> <| d_onwd_q := None |> <| d_onto_q := None |>).
  set (d2 := match d_stats d1 with
             | Some st => d1 <| d_stats := Some (st <| st_recompute := S (st_recompute st) |>) |>
             | None => d1 end).
  assert (St2 : Static d2).
  { subst d2 d1. destruct (d_stats _); destruct St; constructor; cbn; auto. }
  assert (Ea2 : d_amps d2 = Some a) by (subst d2 d1; destruct (d_stats _); auto).
  assert (Es2 : d_stats d2 = bump_rec (d_stats d)).
  { subst d2 d1; cbn. destruct (d_stats d) eqn:Es; cbn; auto. }
  assert (Ef2 : d_evo_cur d2 = d_evo_cur d /\ d_fidst d2 = d_fidst d /\ d_init d2 = d_init d).
  { subst d2 d1; cbn. destruct (d_stats d); cbn; auto. }
  destruct (loop_gens d2 St2 Ea2) as (d3 & -> & St3 & Fr3 & G3 & C3). cbn [bind].
  assert (M3 : Mid d2 0 d3).
  { constructor; auto; try (intros; lia). intros i _ Hi HD. right.
    destruct (st_dlists _ St3 HD) as (Hn & _).
    destruct (d_dcur d3) as [cur|] eqn:Ecur; [|congruence].
    exists cur; split; auto. }
  destruct (for_range (Mid d2) (step_prop m) n d3 M3) as (d4 & -> & M4).
  { intros k d' Hk M'. apply step_prop_ok; auto. }
  cbn [bind].
  destruct (loop_fwd d2 d4 M4) as (d5 & -> & M5 & F5). cbn [bind].
  assert (Fin : forall d6, Mid d2 n d6 ->
     d_amps d6 = Some a /\ d_evo_cur d6 = d_evo_cur d /\ d_fidst d6 = d_fidst d /\
     d_init d6 = d_init d /\ d_stats d6 = bump_rec (d_stats d) /\
     d_dg_q d6 = None /\ d_prop_q d6 = None /\ d_pg_q d6 = None /\
     d_fwd_q d6 = None /\ d_onwd_q d6 = None /\ d_onto_q d6 = None).
  { intros d6 M6. destruct (mid_frame _ _ _ M6) as (Q1 & Q2 & Q3 & Q4 & Q5 & Q6 & Q7 & Q8 & Q9 & Q10 & Q11).
    assert (QQ : d_dg_q d2 = None /\ d_prop_q d2 = None /\ d_pg_q d2 = None /\
     d_fwd_q d2 = None /\ d_onwd_q d2 = None /\ d_onto_q d2 = None).
    { subst d2 d1; cbn. destruct (d_stats d); cbn; auto 10. }
    destruct Ef2 as (R1 & R2 & R3). destruct QQ as (R4 & R5 & R6 & R7 & R8 & R9).
    splits; congruence. }
  rewrite (st_set _ (mid_st _ _ _ M5)), settled_fid.
  case_eq (s_fid s); intros EF; cbn [uses_onwd].
  - cbn [bind]. rewrite (st_set _ (mid_st _ _ _ M5)), settled_fid, EF; cbn [uses_onto].
    destruct (loop_onto d2 d5 EF M5 F5) as (d6 & -> & M6 & F6 & O6).
    exists d6; split; auto. split; [apply M6|]. split; [|apply Fin; auto].
    constructor; try apply M6; auto. congruence.
  - destruct (loop_onwd d2 d5 EF M5 F5) as (d6 & -> & M6 & F6 & O6). cbn [bind].
    rewrite (st_set _ (mid_st _ _ _ M6)), settled_fid, EF; cbn [uses_onto].
    exists d6; split; auto. split; [apply M6|]. split; [|apply Fin; auto].
    constructor; try apply M6; auto. congruence.
Qed.

End Amps.
End Run.
