(** Properties C01, C02, C03, C05, C06, C08, C09: the evolution, fidelity and
    gradient seen by the user after any history of calls on one object.

    Throughout, [session s st a ops = Ok d] says: a new Dynamics with the
    settings [s] is initialised with the amplitudes [a] and then the calls
    [ops] are made on it, none of which raises; the object is then [d].
    [latest a ops] are the amplitudes of the last update.  [st] says whether
    statistics are collected. *)
From Coq Require Import Reals Lra.
From Coquelicot Require Import Complex.
From RecordUpdate Require Import RecordUpdate.
From Verif.Model Require Import Base Dyn.
From Verif.Lib Require Import Lists.
From Verif.Spec Require Import Evolution History Scalar.
From Verif.Proofs Require Import DynInv DynRun DynHist DynHistory DynProps ScalarFacts DynMore.
Local Open Scope nat_scope.

(** ** Concrete cases used in the examples: three slots, one control, one
    update, queries in between. *)
Definition ex_ops : list op :=
  [GetFidErr; GetGradient; UpdateAmps [[2%R]; [0%R]; [1%R]]; GetFwdEvo; GetFidErr; ComputeEvolution].
Definition ex_amps : amps := [[1%R]; [1%R]; [1%R]].
Definition ex_s (f : fidkind) : settings ScalarAlg :=
  sc_settings Unitary 3 (Some (PhNum (- Ci)%C : phase ScalarAlg)) Frechet f.

Example ex_hyps f :
  well_posed (ex_s f) 3 1 /\ routines_ok (ex_s f) 3 1 /\ shape 3 1 ex_amps /\
  Forall (call_ok (ex_s f) 3 1) ex_ops /\ latest ex_amps ex_ops = [[2%R]; [0%R]; [1%R]].
Proof.
  splits.
  - apply sc_well_posed; [lia|discriminate].
  - apply sc_routines; discriminate.
  - split; auto. repeat constructor.
  - repeat constructor; cbn; auto; discriminate.
  - reflexivity.
Qed.

(** ** C01 *)
Theorem C01_forward_evolution {A : Alg} (s : settings A) n m st a ops :
  well_posed s n m -> routines_ok s n m -> shape n m a -> Forall (call_ok s n m) ops ->
  exists d d' b ps,
    session s st a ops = Ok d /\ compute_evolution d = Ok (d', b) /\
    (* the propagators the user sees, one per slot *)
    length ps = n /\ snd (get_prop d') = map Some ps /\
    (* fwd_evo has n + 1 entries; entry k is prop[k-1] ... prop[0] initial *)
    length (snd (get_fwd_evo d')) = S n /\
    (forall k, k <= n ->
       nth_error (snd (get_fwd_evo d')) k = Some (Some (evolve (firstn k ps) (s_initial s)))) /\
    (exists d'', full_evo d' = Ok (d'', evolve ps (s_initial s))).
Proof.
  intros W RO Ha F.
  destruct (session_evolution s n m W RO st a ops Ha F) as (d & d' & b & E & E' & _ & Hp & Hf & Hfull & _).
  exists d, d', b, (props_of s (latest a ops)); splits; auto.
  - rewrite <- (map_length Some (props_of _ _)), <- Hp.
    destruct (session_ok s n m W RO st a ops Ha F) as (d0 & E0 & G & _).
    rewrite E in E0; injection E0 as <-.
    rewrite Hp, map_length. apply (good_lens s n m W RO _ _ G).
  - rewrite Hf, map_length, seq_length; auto.
  - intros k Hk. rewrite Hf, nth_seq_map by lia. reflexivity.
Qed.

(** ** C02 *)
Theorem C02_onto_composes {A : Alg} (s : settings A) n m st a ops :
  (forall x y z : Op A, omul A x (omul A y z) = omul A (omul A x y) z) ->
  well_posed s n m -> routines_ok s n m -> shape n m a -> Forall (call_ok s n m) ops ->
  s_fid s = FUnit ->
  exists d d' b ps onto,
    session s st a ops = Ok d /\ compute_evolution d = Ok (d', b) /\
    snd (get_prop d') = map Some ps /\ snd (get_onto_evo d') = Some onto /\ length onto = S n /\
    forall k, k <= n -> exists o f,
      nth_error onto k = Some (Some o) /\ nth_error (snd (get_fwd_evo d')) k = Some (Some f) /\
      (* (target adjoint) prop[n-1] ... prop[k] *)
      o = devolve (undo_target s) (skipn k ps) /\
      (* the same overlap operator at every slot *)
      omul A o f = omul A (undo_target s) (evolve ps (s_initial s)).
Proof.
  intros assoc W RO Ha F HF.
  destruct (session_evolution s n m W RO st a ops Ha F) as (d & d' & b & E & E' & _ & Hp & Hf & _ & Ho & _).
  eexists d, d', b, _, _; splits; eauto.
  - rewrite map_length, seq_length; auto.
  - intros k Hk. eexists _, _; splits; try (rewrite ?Hf, nth_seq_map by lia; reflexivity); auto.
    cbn [Nat.add]. apply onto_fwd; auto.
Qed.

Theorem C02_onwd_composes_partial {A : Alg} (s : settings A) n m st a ops :
  (forall x y z : Op A, omul A x (omul A y z) = omul A (omul A x y) z) ->
  well_posed s n m -> routines_ok s n m -> shape n m a -> Forall (call_ok s n m) ops ->
  s_fid s = FTrace ->
  (* missing from the full statement: Qobj operators, see C02_onwd_qobj_refuted *)
  s_dtype s = DNdarray ->
  exists d d' b ps onwd,
    session s st a ops = Ok d /\ compute_evolution d = Ok (d', b) /\
    snd (get_prop d') = map Some ps /\ snd (get_onwd_evo d') = Some onwd /\ length onwd = n /\
    forall k, k < n -> exists o f,
      nth_error onwd k = Some (Some o) /\ nth_error (snd (get_fwd_evo d')) k = Some (Some f) /\
      (* prop[n-1] ... prop[k] *)
      product (skipn k ps) = Some o /\
      omul A o f = evolve ps (s_initial s).
Proof.
  intros assoc W RO Ha F HF HN.
  destruct (session_evolution s n m W RO st a ops Ha F) as (d & d' & b & E & E' & _ & Hp & Hf & _ & _ & Ho).
  eexists d, d', b, _, _; splits; eauto.
  - rewrite map_length, seq_length; auto.
  - intros k Hk.
    assert (L : length (props_of s (latest a ops)) = n).
    { destruct (session_ok s n m W RO st a ops Ha F) as (d0 & E0 & G & _). apply (good_lens s n m W RO _ _ G). }
    destruct (product_total (skipn k (props_of s (latest a ops)))) as (q & Eq).
    { intros Hn. apply (f_equal (@length _)) in Hn. rewrite skipn_length in Hn; cbn in Hn; lia. }
    eexists q, _; splits; try (rewrite ?Hf, nth_seq_map by lia; cbn [Nat.add]; rewrite ?Eq; reflexivity); auto.
    apply onwd_fwd; auto.
Qed.

Example C02_assoc_scalar : forall x y z : Op ScalarAlg, omul ScalarAlg x (omul _ y z) = omul _ (omul _ x y) z.
Proof. intros x y z. apply Cmult_assoc. Qed.

(** With Qobj operators onwd_evo is the forward list: it has one entry too
    many and its first entry is the initial operator. *)
Theorem C02_onwd_qobj_refuted {A : Alg} (s : settings A) n m st a :
  well_posed s n m -> routines_ok s n m -> shape n m a -> s_fid s = FTrace -> s_dtype s = DQobj ->
  exists d d' l,
    session s st a [] = Ok d /\ compute_evolution d = Ok (d', true) /\
    snd (get_onwd_evo d') = Some l /\ length l = S n /\ nth_error l 0 = Some (Some (s_initial s)).
Proof. apply onwd_qobj. Qed.

Example C02_onwd_qobj_case : let s := ex_s FTrace <| s_dtype := DQobj |> in
  well_posed s 3 1 /\ routines_ok s 3 1 /\ s_fid s = FTrace /\ s_dtype s = DQobj.
Proof.
  cbv zeta; splits; auto.
  - destruct (ex_hyps FTrace) as (W & _). destruct W; constructor; auto.
  - destruct (ex_hyps FTrace) as (_ & R & _). exact R.
Qed.

(** ** C03 *)
Theorem C03_fid_err_not_stale {A : Alg} (s : settings A) n m st st' a ops :
  well_posed s n m -> routines_ok s n m -> shape n m a -> Forall (call_ok s n m) ops ->
  exists d d1 f f1 v,
    session s st a ops = Ok d /\ get_fid_err d = Ok (d1, v) /\
    (* a new object initialised with the latest amplitudes *)
    session s st' (latest a ops) [] = Ok f /\ get_fid_err f = Ok (f1, v) /\
    v = fid_err_of s (latest a ops).
Proof.
  intros W RO Ha F. pose proof (latest_shape s n m a ops Ha F) as Hl.
  destruct (session_values s n m W RO st a ops Ha F) as (d & d1 & _ & E & E1 & _).
  destruct (session_values s n m W RO st' _ [] Hl (Forall_nil _)) as (f & f1 & _ & Ef & Ef1 & _).
  exists d, d1, f, f1, (fid_err_of s (latest a ops)); splits; auto.
Qed.

Theorem C03_fidelity_not_stale {A : Alg} (s : settings A) n m st st' a ops :
  well_posed s n m -> routines_ok s n m -> shape n m a -> Forall (call_ok s n m) ops -> s_fid s = FUnit ->
  exists d d1 f f1 v,
    session s st a ops = Ok d /\ get_fidelity d = Ok (d1, v) /\
    session s st' (latest a ops) [] = Ok f /\ get_fidelity f = Ok (f1, v) /\
    v = fidelity_of s (latest a ops).
Proof.
  intros W RO Ha F HF. pose proof (latest_shape s n m a ops Ha F) as Hl.
  destruct (session_values s n m W RO st a ops Ha F) as (d & _ & d2 & E & _ & E1).
  destruct (session_values s n m W RO st' _ [] Hl (Forall_nil _)) as (f & _ & f1 & Ef & _ & Ef1).
  exists d, d2, f, f1, (fidelity_of s (latest a ops)); splits; auto.
Qed.

Theorem C03_gradient_not_stale {A : Alg} (s : settings A) n m st st' a ops :
  well_posed s n m -> routines_ok s n m -> shape n m a -> Forall (call_ok s n m) ops -> s_prop s <> Approx ->
  exists d d1 f f1 g,
    session s st a ops = Ok d /\ get_fid_err_gradient d = Ok (d1, g) /\
    session s st' (latest a ops) [] = Ok f /\ get_fid_err_gradient f = Ok (f1, g) /\
    (* grad_norm: the Euclidean norm of exactly that array *)
    f_gradnorm (d_fidst d1) = sqrt (fold_right Rplus 0%R (map (fun x => x * x)%R (concat g))).
Proof.
  intros W RO Ha F HA. pose proof (latest_shape s n m a ops Ha F) as Hl.
  destruct (session_gradient s n m W RO st a ops Ha F HA) as (d & d1 & g & E & E1 & G1 & _ & N).
  destruct (session_gradient s n m W RO st' _ [] Hl (Forall_nil _) HA) as (f & f1 & g' & Ef & Ef1 & G2 & _).
  exists d, d1, f, f1, g; splits; auto. rewrite (grad_is_unique _ _ _ _ _ G1 G2). auto.
Qed.

(** The gradient is the array of first-order changes prescribed by
    [Spec/Evolution.v], given that the routine in use delivers the derivative
    of the exponential. *)
Theorem C03_gradient_value {A : Alg} (s : settings A) n m st a ops dexp :
  well_posed s n m -> routines_ok s n m -> grad_routines_at dexp s n m (latest a ops) ->
  shape n m a -> Forall (call_ok s n m) ops -> s_prop s <> Approx ->
  exists d d1 g, session s st a ops = Ok d /\ get_fid_err_gradient d = Ok (d1, g) /\
                 grad_is (dprop dexp s) s (latest a ops) g.
Proof.
  intros W RO GR Ha F HA.
  destruct (session_gradient s n m W RO st a ops Ha F HA) as (d & d1 & g & E & E1 & G1 & _).
  exists d, d1, g; splits; auto.
  apply (grad_at s n m); auto; [apply W|eapply latest_shape; eauto].
Qed.

Example C03_grad_case f : grad_routines_ok (A:=ScalarAlg) (fun x e : C => (cexp x * e)%C) (ex_s f) 3 1 /\ s_prop (ex_s f) <> Approx.
Proof. split; [|discriminate]. intros a k j t g cj _; splits; try discriminate. reflexivity. Qed.

(** ** C05 *)
(** For an object that holds amplitudes [old], in any state whatever. *)
Theorem C05_update_exact {A : Alg} (d : dyn A) n m old new :
  d_amps d = Some old -> shape n m old -> shape n m new ->
  exists d', update_ctrl_amps new d = Ok d' /\ d_amps d' = Some new /\
    (old = new -> d' = d) /\
    (old <> new ->
       d_evo_cur d' = false /\ f_fid_cur (d_fidst d') = false /\
       f_pre_cur (d_fidst d') = false /\ f_grad_cur (d_fidst d') = false /\
       forall x, d_stats d = Some x ->
         d_stats d' = Some (x <| st_upd := st_upd x + 1 |>
                              <| st_chg := st_chg x + diff_entries old new |>
                              <| st_ts := st_ts x + diff_rows old new |>)).
Proof. apply update_exact. Qed.

(** No amplitudes stored yet: everything counts as changed. *)
Theorem C05_first_update {A : Alg} (d : dyn A) n m new :
  d_amps d = None -> shape n m new ->
  exists d', update_ctrl_amps new d = Ok d' /\ d_amps d' = Some new /\
       d_evo_cur d' = false /\ f_fid_cur (d_fidst d') = false /\
       f_pre_cur (d_fidst d') = false /\ f_grad_cur (d_fidst d') = false /\
       forall x, d_stats d = Some x -> exists x', d_stats d' = Some x' /\
         st_chg x' = st_chg x + n * m /\ st_ts x' = st_ts x + n.
Proof. apply first_update. Qed.

Example C05_counts : diff_entries [[1;2];[3;4];[5;6]]%R [[1;0];[3;4];[0;0]]%R = 3 /\
                     diff_rows [[1;2];[3;4];[5;6]]%R [[1;0];[3;4];[0;0]]%R = 2.
Proof.
  unfold diff_entries, diff_rows, differs; cbn.
  repeat (destruct Req_EM_T; [try (exfalso; lra)|try (exfalso; lra)]; cbn); auto.
Qed.

(** ** C06 *)
Theorem C06_recompute_once {A : Alg} (s : settings A) n m a ops :
  well_posed s n m -> routines_ok s n m -> shape n m a -> Forall (call_ok s n m) ops ->
  exists d x, session s true a ops = Ok d /\ d_stats d = Some x /\
    (* the first amplitudes, plus one per update that changed something *)
    st_recompute x <= 1 + changes a ops /\
    st_fid x <= 1 + changes a ops /\
    st_grad x <= 1 + changes a ops.
Proof.
  intros W RO Ha F.
  destruct (session_ok s n m W RO true a ops Ha F) as (d & E & _ & K).
  destruct (K eq_refl) as (x & Ex & K1 & K2 & K3). exists d, x; splits; auto; lia.
Qed.

Example C06_changes : changes ex_amps ex_ops = 1 /\
  changes ex_amps [UpdateAmps ex_amps; GetFidErr; UpdateAmps ex_amps] = 0.
Proof.
  unfold ex_ops, ex_amps; cbn [changes].
  split; repeat match goal with |- context [list_eq_dec ?e ?x ?y] => destruct (list_eq_dec e x y) as [E|E] end;
    try congruence; auto.
  injection E. lra.
Qed.

(** A repeated query returns the same value and does nothing at all. *)
Theorem C06_repeated_query {A : Alg} (s : settings A) n m st a ops :
  well_posed s n m -> routines_ok s n m -> shape n m a -> Forall (call_ok s n m) ops ->
  exists d, session s st a ops = Ok d /\
    (forall d1 v, get_fid_err d = Ok (d1, v) -> get_fid_err d1 = Ok (d1, v)) /\
    (forall d1 v, get_fidelity d = Ok (d1, v) -> get_fidelity d1 = Ok (d1, v)) /\
    (forall d1 g, get_fid_err_gradient d = Ok (d1, g) -> get_fid_err_gradient d1 = Ok (d1, g)) /\
    (forall d1 b, compute_evolution d = Ok (d1, b) -> compute_evolution d1 = Ok (d1, false)).
Proof. apply repeated_query. Qed.

(** ** C08 *)
Theorem C08_generator {A : Alg} (s : settings A) n m st a ops dr c :
  well_posed s n m -> routines_ok s n m -> shape n m a -> Forall (call_ok s n m) ops ->
  eff_drift s = Some dr -> eff_ctrls s = Some c ->
  exists d d' b, session s st a ops = Ok d /\ compute_evolution d = Ok (d', b) /\
    length (snd (get_dyn_gen d')) = n /\ length (snd (get_prop d')) = n /\
    forall k, k < n -> exists h u cs t,
      (* the drift of slot k: the constant one or the k-th of the list *)
      match dr with DConst o => h = o | DList l => nth_error l k = Some h end /\
      (* the controls of slot k *)
      match c with CList l => cs = l | CArr rows => nth_error rows k = Some cs end /\
      nth_error (latest a ops) k = Some u /\ nth_error (s_tau s) k = Some t /\
      length u = m /\ length cs = m /\
      (* h + u_1 c_1 + ... + u_m c_m *)
      nth_error (snd (get_dyn_gen d')) k = Some (Some (lincomb h u cs)) /\
      (* exp (t * phase * generator) *)
      nth_error (snd (get_prop d')) k =
        Some (Some (oexpm A (oscale A (RtoC t) (with_phase s (lincomb h u cs))))).
Proof. apply generator_values. Qed.

Example C08_case : exists dr c, eff_drift (ex_s FUnit) = Some dr /\ eff_ctrls (ex_s FUnit) = Some c.
Proof. eexists _, _; split; reflexivity. Qed.

(** ** C09 *)
(** [s2] is [s1] with other caching flags. *)
Definition recached {A} (s1 : settings A) (ph pg adj : bool) : settings A :=
  s1 <| s_cache_ph := ph |> <| s_cache_pg := pg |> <| s_cache_adj := adj |>.

Theorem C09_caching_irrelevant {A : Alg} (s : settings A) n m st a ops ph pg adj :
  0 < m -> well_posed s n m -> routines_ok s n m -> shape n m a -> Forall (call_ok s n m) ops ->
  exists d1 d2 e1 e2 b1 b2,
    session s st a ops = Ok d1 /\ session (recached s ph pg adj) st a ops = Ok d2 /\
    compute_evolution d1 = Ok (e1, b1) /\ compute_evolution d2 = Ok (e2, b2) /\
    snd (get_dyn_gen e2) = snd (get_dyn_gen e1) /\
    snd (get_prop e2) = snd (get_prop e1) /\
    snd (get_fwd_evo e2) = snd (get_fwd_evo e1) /\
    (s_fid s = FUnit -> snd (get_onto_evo e2) = snd (get_onto_evo e1)) /\
    (s_fid s = FTrace -> s_dtype s = DNdarray -> snd (get_onwd_evo e2) = snd (get_onwd_evo e1)) /\
    (exists x1 x2 v, get_fid_err d1 = Ok (x1, v) /\ get_fid_err d2 = Ok (x2, v)) /\
    (s_prop s <> Approx ->
     exists x1 x2 g, get_fid_err_gradient d1 = Ok (x1, g) /\ get_fid_err_gradient d2 = Ok (x2, g)).
Proof. apply caching_irrelevant. Qed.

(** memory_optimization only fills in what the user left unset; level 0 and
    below caches everything, level 1 nothing, and only above 1 is the sparse
    decomposition chosen. *)
Theorem C09_memory_level (level : Z) (ph pg adj sp : option bool) :
  let '(ph', pg', adj', sp') := mem_opt level ph pg adj sp in
  (forall b, ph = Some b -> ph' = b) /\ (forall b, pg = Some b -> pg' = b) /\
  (forall b, adj = Some b -> adj' = b) /\ (forall b, sp = Some b -> sp' = b) /\
  (ph = None -> (ph' = true <-> (level <= 0)%Z)) /\
  (pg = None -> (pg' = true <-> (level <= 0)%Z)) /\
  (adj = None -> (adj' = true <-> (level <= 0)%Z)) /\
  (sp = None -> (sp' = true <-> (2 <= level)%Z)).
Proof. apply mem_opt_ok. Qed.

(** Assumptions of all theorems of this file together (listed one by one in
    ASSUMPTIONS.txt). *)
Definition propsEvolution :=
  (@C01_forward_evolution,
   @C02_onto_composes,
   @C02_onwd_composes_partial,
   @C02_onwd_qobj_refuted,
   @C03_fid_err_not_stale,
   @C03_fidelity_not_stale,
   @C03_gradient_not_stale,
   @C03_gradient_value,
   @C05_update_exact,
   @C05_first_update,
   @C06_recompute_once,
   @C06_repeated_query,
   @C08_generator,
   @C09_caching_irrelevant,
   @C09_memory_level).
Print Assumptions propsEvolution.
