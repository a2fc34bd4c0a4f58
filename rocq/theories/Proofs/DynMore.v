(** Remaining lemmas behind Props/PropsEvolution.v. *)
From Coq Require Import Reals Lra.
From Coquelicot Require Import Complex.
From RecordUpdate Require Import RecordUpdate.
From Verif.Model Require Import Base Dyn.
From Verif.Lib Require Import Lists.
From Verif.Spec Require Import Evolution History.
From Verif.Proofs Require Import DynInv DynRun DynHist DynHistory DynProps.
Local Open Scope nat_scope.

Lemma product_total {A : Alg} (l : list (Op A)) : l <> [] -> exists q, product l = Some q.
Proof.
  induction l as [|p l IH]; [congruence|]. intros _. destruct l as [|p' l]; [eexists; reflexivity|].
  destruct IH as (q & E); [discriminate|]. exists (omul A q p). apply product_cons; auto.
Qed.

Lemma good_fid {A : Alg} (s : settings A) n m a d : Good s n m a d -> s_fid (d_set d) = s_fid s.
Proof.
  intros (dr & c & _ & _ & _ & _ & I).
  rewrite (st_set _ _ _ _ _ _ (inv_st _ _ _ _ _ _ _ I)), settled_fid; auto.
Qed.

Lemma fidelity_again {A : Alg} (d d1 : dyn A) v : get_fidelity d = Ok (d1, v) ->
  s_fid (d_set d1) = s_fid (d_set d) -> get_fidelity d1 = Ok (d1, v).
Proof.
  unfold get_fidelity. destruct (s_fid (d_set d)) eqn:Ef; [|discriminate].
  destruct (f_fid_cur (d_fidst d)) eqn:Ec.
  - destruct (f_fidelity (d_fidst d)) eqn:Ev; cbn; [|discriminate]. intros [= <- <-] _. rewrite Ef, Ec, Ev; auto.
  - destruct (get_fidelity_prenorm d) as [[d' f]|]; cbn [bind]; [|discriminate].
    intros [= <- <-] ->. cbn. reflexivity.
Qed.

Lemma fid_err_again {A : Alg} (d d1 : dyn A) v : get_fid_err d = Ok (d1, v) ->
  s_fid (d_set d1) = s_fid (d_set d) -> get_fid_err d1 = Ok (d1, v).
Proof.
  unfold get_fid_err. destruct (s_fid (d_set d)) eqn:Ef.
  - destruct (get_fidelity d) as [[d' f]|] eqn:Eg; cbn [bind]; [|discriminate].
    intros [= <- <-] H. rewrite H. rewrite (fidelity_again _ _ _ Eg) by congruence. reflexivity.
  - destruct (f_fid_cur (d_fidst d)) eqn:Ec.
    + destruct (f_fid_err (d_fidst d)) eqn:Ev; cbn; [|discriminate]. intros [= <- <-] _. rewrite Ef, Ec, Ev; auto.
    + destruct (compute_evolution d) as [[d' b]|]; cbn [bind]; [|discriminate].
      destruct (getf _ _); cbn [bind]; [|discriminate].
      destruct (d_target d'); cbn [bind some_or]; [|discriminate].
      destruct (s_scale (d_set d')); cbn [bind some_or]; [|discriminate].
      intros [= <- <-] ->. unfold bump_fid; destruct d' as [? ? ? ? ? ? ? ? ? ? ? ? ? ? ? ? ? ? ? ? ? ? ? ? ? ? ? ? ? ? ? [x|]]; reflexivity.
Qed.

Lemma gradient_again {A : Alg} (d d1 : dyn A) g : get_fid_err_gradient d = Ok (d1, g) ->
  get_fid_err_gradient d1 = Ok (d1, g).
Proof.
  unfold get_fid_err_gradient.
  destruct (f_grad_cur (d_fidst d)) eqn:Ec.
  - destruct (f_grad (d_fidst d)) eqn:Ev; cbn; [|discriminate]. intros [= <- <-]. rewrite Ec, Ev; auto.
  - match goal with |- context [bind ?x _] => destruct x as [[d' f]|] end; cbn [bind]; [|discriminate].
    intros [= <- <-]. unfold bump_grad; destruct d' as [? ? ? ? ? ? ? ? ? ? ? ? ? ? ? ? ? ? ? ? ? ? ? ? ? ? ? ? ? ? ? [x|]]; reflexivity.
Qed.

Lemma onwd_qobj {A : Alg} (s : settings A) n m st a :
  well_posed s n m -> routines_ok s n m -> shape n m a -> s_fid s = FTrace -> s_dtype s = DQobj ->
  exists d d' l,
    session s st a [] = Ok d /\ compute_evolution d = Ok (d', true) /\
    snd (get_onwd_evo d') = Some l /\ length l = S n /\ nth_error l 0 = Some (Some (s_initial s)).
Proof.
  intros W RO Ha HF HD.
  destruct W as [Htau Hpos (dr & Hdr & Hdrf) (c & Hc & Hcf) Hm Hdiagc]. destruct RO as (Hfr & Haug & Hdiag).
  unfold session.
  destruct (init_ok s n m dr c Htau Hpos Hdr Hdrf Hc Hcf Hm Hdiagc Hfr Haug Hdiag a (new_dyn s st) eq_refl Ha (new_reinit s n m c st))
    as (d0 & -> & I0 & C0 & _). cbn [bind run].
  destruct (recompute_ok s n m dr c Htau Hpos Hdr Hdrf Hc Hcf Hm Hdiagc Hfr Haug Hdiag a Ha d0
              (inv_st _ _ _ _ _ _ _ I0) (inv_amps _ _ _ _ _ _ _ I0))
    as (d' & E' & St & _ & _ & _ & _ & _ & _ & _ & _ & _ & _ & Q & _).
  exists d0, (d' <| d_evo_cur := true |>), (d_fwd d'); splits; auto.
  - unfold compute_evolution. rewrite C0, E'; reflexivity.
  - unfold get_onwd_evo; cbn. destruct (st_onwd _ _ _ _ _ _ St HF) as (l & El & _).
    rewrite El, Q, (st_set _ _ _ _ _ _ St), settled_dtype, HD. reflexivity.
  - apply St.
  - apply St.
Qed.

Lemma neq_same n m (x y : amps) : shape n m x -> shape n m y -> exists ch, neq_amps x y = Ok ch.
Proof.
  intros [L1 F1] [L2 F2]. rewrite <- L2 in L1. clear L2 n. revert y F2 L1.
  induction x as [|u x IH]; intros [|v y] F2 L; cbn in L; try discriminate; [eexists; reflexivity|].
  cbn [neq_amps].
  assert (exists r, neq_row u v = Ok r) as (r & ->).
  { assert (Luv : length u = length v) by (rewrite (Forall_inv F1), (Forall_inv F2); auto).
    clear - Luv. revert v Luv; induction u as [|p u IH]; intros [|q v] L; cbn in L; try discriminate.
    - eexists; reflexivity.
    - cbn [neq_row]. destruct (IH v) as (r & ->); [lia|]. eexists; reflexivity. }
  destruct (IH (Forall_inv_tail F1) y (Forall_inv_tail F2)) as (rs & ->); [lia|]. eexists; reflexivity.
Qed.

Lemma update_exact {A : Alg} (d : dyn A) n m old new :
  d_amps d = Some old -> shape n m old -> shape n m new ->
  exists d', update_ctrl_amps new d = Ok d' /\ d_amps d' = Some new /\
    (old = new -> d' = d) /\
    (old <> new ->
       d_evo_cur d' = false /\ f_fid_cur (d_fidst d') = false /\
       f_pre_cur (d_fidst d') = false /\ f_grad_cur (d_fidst d') = false /\
       forall x, d_stats d = Some x ->
         d_stats d' = Some (x <| st_upd := st_upd x + 1 |>
                              <| st_chg := st_chg x + diff_entries old new |>
                              <| st_ts := st_ts x + diff_rows old new |>)).
Proof.
  intros E Ho Hn. destruct (neq_same n m old new Ho Hn) as (ch & Ech).
  destruct (neq_amps_count _ _ _ Ech) as (H1 & H2 & H3).
  unfold update_ctrl_amps, compare_amps. rewrite E, Ech. cbn [bind]. rewrite H3, H1, H2.
  destruct (list_eq_dec (list_eq_dec Req_EM_T) old new) as [->|N]; cbn [bind].
  - exists d. destruct d as [? ? ? ? ? ? ? ? ? ? ? ? ? ? ? ? ? ? ? ? ? ? ? ? ? ? ? ? ? ? ? [x|]]; cbn in *; splits; auto; try congruence.
    destruct x; cbn. rewrite !Nat.add_0_r; reflexivity.
  - assert (D : diff_entries old new <> 0).
    { intros D. apply N. apply diff_entries_0; auto.
      - destruct Ho, Hn; congruence.
      - intros k x y Hx Hy. destruct Ho as [_ Fo], Hn as [_ Fn]. rewrite Forall_forall in Fo, Fn.
        rewrite (Fo x), (Fn y); auto; eapply nth_error_In; eauto. }
    apply Nat.eqb_neq in D. rewrite D.
    eexists; split; [reflexivity|]. destruct d as [? ? ? ? ? ? ? ? ? ? ? ? ? ? ? ? ? ? ? ? ? ? ? ? ? ? ? ? ? ? ? [x|]]; cbn in *; splits; intros; auto; try congruence.
    1-2: splits; auto; intros y Hy; first [discriminate | injection Hy as <-; reflexivity].
Qed.

Lemma concat_len n m (x : amps) : shape n m x -> length (concat x) = n * m.
Proof.
  intros [<- F]. induction x as [|r x IH]; cbn; auto. rewrite app_length, (Forall_inv F), IH; auto.
  apply (Forall_inv_tail F).
Qed.

Lemma first_update {A : Alg} (d : dyn A) n m new :
  d_amps d = None -> shape n m new ->
  exists d', update_ctrl_amps new d = Ok d' /\ d_amps d' = Some new /\
       d_evo_cur d' = false /\ f_fid_cur (d_fidst d') = false /\
       f_pre_cur (d_fidst d') = false /\ f_grad_cur (d_fidst d') = false /\
       forall x, d_stats d = Some x -> exists x', d_stats d' = Some x' /\
         st_chg x' = st_chg x + n * m /\ st_ts x' = st_ts x + n.
Proof.
  intros E Hn. unfold update_ctrl_amps, compare_amps. rewrite E. cbn [bind].
  rewrite (concat_len n m new Hn). destruct Hn as [-> _].
  eexists; split; [reflexivity|].
  destruct d as [? ? ? ? ? ? ? ? ? ? ? ? ? ? ? ? ? ? ? ? ? ? ? ? ? ? ? ? ? ? ? [x|]]; cbn in *; splits; auto; try congruence.
  intros y [= <-]. eexists; splits; [reflexivity| |]; reflexivity.
Qed.

Lemma repeated_query {A : Alg} (s : settings A) n m st a ops :
  well_posed s n m -> routines_ok s n m -> shape n m a -> Forall (call_ok s n m) ops ->
  exists d, session s st a ops = Ok d /\
    (forall d1 v, get_fid_err d = Ok (d1, v) -> get_fid_err d1 = Ok (d1, v)) /\
    (forall d1 v, get_fidelity d = Ok (d1, v) -> get_fidelity d1 = Ok (d1, v)) /\
    (forall d1 g, get_fid_err_gradient d = Ok (d1, g) -> get_fid_err_gradient d1 = Ok (d1, g)) /\
    (forall d1 b, compute_evolution d = Ok (d1, b) -> compute_evolution d1 = Ok (d1, false)).
Proof.
  intros W RO Ha F.
  destruct (session_ok s n m W RO st a ops Ha F) as (d & E & G & _). exists d; splits; auto.
  - intros d1 v E1. destruct (good_err s n m W RO _ _ G) as (d1' & E1' & G1).
    rewrite E1 in E1'; injection E1' as <- ->. eapply fid_err_again; eauto.
    rewrite (good_fid _ _ _ _ _ G), (good_fid _ _ _ _ _ G1); auto.
  - intros d1 v E1. case_eq (s_fid s); intros HF.
    + destruct (good_fidelity s n m W RO _ _ HF G) as (d1' & E1' & G1).
      rewrite E1 in E1'; injection E1' as <- ->. eapply fidelity_again; eauto.
      rewrite (good_fid _ _ _ _ _ G), (good_fid _ _ _ _ _ G1); auto.
    + unfold get_fidelity in E1. rewrite (good_fid _ _ _ _ _ G), HF in E1. discriminate.
  - intros d1 g E1. eapply gradient_again; eauto.
  - intros d1 b E1. destruct (good_evo s n m W RO _ _ G) as (d' & b' & E' & _ & C' & _).
    rewrite E1 in E'; injection E' as <- _. unfold compute_evolution. rewrite C'. reflexivity.
Qed.

Lemma generator_values {A : Alg} (s : settings A) n m st a ops dr c :
  well_posed s n m -> routines_ok s n m -> shape n m a -> Forall (call_ok s n m) ops ->
  eff_drift s = Some dr -> eff_ctrls s = Some c ->
  exists d d' b, session s st a ops = Ok d /\ compute_evolution d = Ok (d', b) /\
    length (snd (get_dyn_gen d')) = n /\ length (snd (get_prop d')) = n /\
    forall k, k < n -> exists h u cs t,
      match dr with DConst o => h = o | DList l => nth_error l k = Some h end /\
      match c with CList l => cs = l | CArr rows => nth_error rows k = Some cs end /\
      nth_error (latest a ops) k = Some u /\ nth_error (s_tau s) k = Some t /\
      length u = m /\ length cs = m /\
      nth_error (snd (get_dyn_gen d')) k = Some (Some (lincomb h u cs)) /\
      nth_error (snd (get_prop d')) k =
        Some (Some (oexpm A (oscale A (RtoC t) (with_phase s (lincomb h u cs))))).
Proof.
  intros W RO Ha F Hdr Hc.
  destruct (session_evolution s n m W RO st a ops Ha F) as (d & d' & b & E & E' & Hg & Hp & _).
  destruct (session_ok s n m W RO st a ops Ha F) as (d0 & E0 & G & _).
  destruct (good_lens s n m W RO _ _ G) as [L1 L2].
  exists d, d', b; splits; auto.
  - rewrite Hg, map_length; auto.
  - rewrite Hp, map_length; auto.
  - intros k Hk. pose proof (latest_shape s n m a ops Ha F) as [La Fa].
    destruct W as [Htau Hpos (dr' & Hdr' & Hdrf) (c' & Hc' & Hcf) Hm Hdiagc].
    rewrite Hdr in Hdr'; injection Hdr' as <-. rewrite Hc in Hc'; injection Hc' as <-.
    assert (exists h, nth_error (drift_ops n dr) k = Some h /\
              match dr with DConst o => h = o | DList l => nth_error l k = Some h end) as (h & Hh1 & Hh2).
    { destruct dr as [o|l]; cbn in *.
      - exists o; split; auto. apply nth_error_repeat; auto.
      - destruct (nth_ex l k) as (h & Eh); [lia|]. exists h; split; auto. rewrite firstn_all2; auto; lia. }
    assert (exists cs, nth_error (ctrl_ops n c) k = Some cs /\ length cs = m /\
              match c with CList l => cs = l | CArr rows => nth_error rows k = Some cs end) as (cs & Hs1 & Hs2 & Hs3).
    { destruct c as [l|rows]; cbn in *.
      - exists l; splits; auto. apply nth_error_repeat; auto.
      - destruct Hcf as [Lr Fr]. destruct (nth_ex rows k) as (h0 & Eh); [lia|]. exists h0; splits; auto.
        + rewrite firstn_all2; auto; lia.
        + rewrite Forall_forall in Fr. apply Fr. eapply nth_error_In; eauto. }
    destruct (nth_ex (latest a ops) k) as (u & Hu); [lia|].
    destruct (nth_ex (s_tau s) k) as (t & Ht); [lia|].
    assert (Eg : nth_error (gens_of s (latest a ops)) k = Some (lincomb h u cs)).
    { unfold gens_of. rewrite Hdr, Hc, Htau. unfold generators. apply map3_nth; auto. }
    exists h, u, cs, t; splits; auto.
    + rewrite Forall_forall in Fa. apply Fa. eapply nth_error_In; eauto.
    + rewrite Hg, nth_error_map, Eg. reflexivity.
    + rewrite Hp, nth_error_map. unfold props_of, propagators. erewrite map2_nth; eauto. reflexivity.
Qed.

Lemma mem_opt_ok (level : Z) (ph pg adj sp : option bool) :
  let '(ph', pg', adj', sp') := mem_opt level ph pg adj sp in
  (forall b, ph = Some b -> ph' = b) /\ (forall b, pg = Some b -> pg' = b) /\
  (forall b, adj = Some b -> adj' = b) /\ (forall b, sp = Some b -> sp' = b) /\
  (ph = None -> (ph' = true <-> (level <= 0)%Z)) /\
  (pg = None -> (pg' = true <-> (level <= 0)%Z)) /\
  (adj = None -> (adj' = true <-> (level <= 0)%Z)) /\
  (sp = None -> (sp' = true <-> (2 <= level)%Z)).
Proof.
  unfold mem_opt.
  splits; intros; subst; auto; destruct (Z.ltb_spec 0 level), (Z.ltb_spec 1 level); cbn; split; intros; auto; try discriminate; lia.
Qed.

Lemma caching_irrelevant {A : Alg} (s : settings A) n m st a ops ph pg adj :
  let s2 := s <| s_cache_ph := ph |> <| s_cache_pg := pg |> <| s_cache_adj := adj |> in
  0 < m -> well_posed s n m -> routines_ok s n m -> shape n m a -> Forall (call_ok s n m) ops ->
  exists d1 d2 e1 e2 b1 b2,
    session s st a ops = Ok d1 /\ session s2 st a ops = Ok d2 /\
    compute_evolution d1 = Ok (e1, b1) /\ compute_evolution d2 = Ok (e2, b2) /\
    snd (get_dyn_gen e2) = snd (get_dyn_gen e1) /\
    snd (get_prop e2) = snd (get_prop e1) /\
    snd (get_fwd_evo e2) = snd (get_fwd_evo e1) /\
    (s_fid s = FUnit -> snd (get_onto_evo e2) = snd (get_onto_evo e1)) /\
    (s_fid s = FTrace -> s_dtype s = DNdarray -> snd (get_onwd_evo e2) = snd (get_onwd_evo e1)) /\
    (exists x1 x2 v, get_fid_err d1 = Ok (x1, v) /\ get_fid_err d2 = Ok (x2, v)) /\
    (s_prop s <> Approx ->
     exists x1 x2 g, get_fid_err_gradient d1 = Ok (x1, g) /\ get_fid_err_gradient d2 = Ok (x2, g)).
Proof.
  intros s2 Hm W RO Ha F.
  assert (W2 : well_posed s2 n m).
  { destruct W; constructor; auto. }
  assert (RO2 : routines_ok s2 n m) by exact RO.
  assert (F2 : Forall (call_ok s2 n m) ops) by exact F.
  destruct (session_evolution s n m W RO st a ops Ha F) as (d1 & e1 & b1 & E1 & C1 & H1 & H2 & H3 & _ & H4 & H5).
  destruct (session_evolution s2 n m W2 RO2 st a ops Ha F2) as (d2 & e2 & b2 & E2 & C2 & K1 & K2 & K3 & _ & K4 & K5).
  exists d1, d2, e1, e2, b1, b2; splits; auto.
  - rewrite H1, K1; reflexivity.
  - rewrite H2, K2; reflexivity.
  - rewrite H3, K3; reflexivity.
  - intros HF. rewrite (H4 HF), (K4 HF); reflexivity.
  - intros HF HN. rewrite (H5 HF HN), (K5 HF HN); reflexivity.
  - destruct (session_values s n m W RO st a ops Ha F) as (d1' & x1 & _ & E1' & V1 & _).
    destruct (session_values s2 n m W2 RO2 st a ops Ha F2) as (d2' & x2 & _ & E2' & V2 & _).
    rewrite E1 in E1'; injection E1' as <-. rewrite E2 in E2'; injection E2' as <-.
    exists x1, x2, (fid_err_of s (latest a ops)); split; [exact V1|exact V2].
  - intros HA.
    destruct (session_gradient s n m W RO st a ops Ha F HA) as (d1' & x1 & g1 & E1' & V1 & G1 & _).
    destruct (session_gradient s2 n m W2 RO2 st a ops Ha F2 HA) as (d2' & x2 & g2 & E2' & V2 & G2 & _).
    rewrite E1 in E1'; injection E1' as <-. rewrite E2 in E2'; injection E2' as <-.
    assert (g1 = g2) as <- by (eapply grad_is_unique; [exact G1|exact G2]).
    exists x1, x2, g1; split; auto.
Qed.
