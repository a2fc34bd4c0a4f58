(** Property C68: what the minimiser is given.

    [used o a], [runnable] and [coding] are those of [Spec/Runs.v]: the
    optimiser [o] has any history of calls and earlier runs.  [prepare] is
    everything run_optimization does before it calls the minimiser; [evs] are
    the calls the minimiser has made so far in this run, none of which has
    stopped it; [x] is the vector it asks for next.  What it gets is compared
    with what a new object reports. *)
From Coq Require Import Reals Lra.
From Coquelicot Require Import Coquelicot.
From RecordUpdate Require Import RecordUpdate.
From Verif.Model Require Import Base Dyn OptRun.
From Verif.Lib Require Import Lists Csum Mat MExp MCalc MDiag.
From Verif.Spec Require Import Evolution History Stopping Runs MatAlg Qubit.
From Verif.Proofs Require Import DynInv DynRun DynHist DynHistory DynProps DynMore OptFacts OptMore ObjFacts
  MatFacts MatGrad MatProps QubitFacts.
From Verif.Props Require Import PropsMatrix.
Local Open Scope nat_scope.
Set Bullet Behavior "Strict Subproofs".

(** ** The value *)
(** For GRAPE and CRAB alike: the amplitudes [decode x] stand for are those
    whose fidelity error is returned, and the run is stopped only when that
    error is at the target or the calls are used up. *)
Theorem C68_objective {A G} (s : settings A) n m to_amps (get_vars : dyn A -> G -> Res (list R)) gens_ok okx decode okg
  o a tcs tc targ t0 o1 r args evs o2 x :
  well_posed s n m -> routines_ok s n m -> coding n m to_amps get_vars gens_ok okx decode okg ->
  used s n m to_amps get_vars gens_ok okx okg o a -> runnable m okg tcs tc targ o ->
  prepare get_vars gens_ok tcs t0 o = Ok (o1, r, args) ->
  Forall (good_call s okx) evs -> do_events to_amps evs o1 = Ok (o2, None) -> okx x ->
  exists o3 res v, fid_wrapper to_amps x o2 = Ok (o3, res) /\
    (forall st, exists e e1, session s st (decode x) [] = Ok e /\ get_fid_err e = Ok (e1, v)) /\
    match res with
    | inl w => w = v /\ (targ < v)%R /\ (INR (S (total is_eval evs)) <= tc_calls tc)%R
    | inr GoalT => (v <= targ)%R
    | inr FidCallT => (targ < v)%R /\ (tc_calls tc < INR (S (total is_eval evs)))%R
    | inr _ => False
    end.
Proof.
  intros W RO CD U HR P F E Hx.
  destruct (calling s n m W RO to_amps get_vars gens_ok okx decode okg CD o a tcs tc targ t0 o1 r args evs o2 U HR P F E)
    as (b & tc' & AT & C1 & C2 & C3).
  destruct (wrap_fid s n m W RO to_amps get_vars gens_ok okx decode okg CD x o2 b tc' targ t0 Hx AT) as (o3 & AT3 & C4 & E3).
  eexists o3, _, (fid_err_of s (decode x)). split; [exact E3|]. split.
  - intros st. destruct (session_values s n m W RO st _ [] (cd_shape _ _ _ _ _ _ _ _ CD x Hx) (Forall_nil _)) as (e & e1 & _ & Q1 & Q2 & _).
    exists e, e1; auto.
  - rewrite C1, C2 in *. destruct (leR _ _) eqn:El; [apply leR_spec in El; auto|]. apply leR_false in El.
    destruct (ltR _ _) eqn:Ec; [apply ltR_spec in Ec; auto|]. apply ltR_false in Ec. auto.
Qed.

(** ** The start *)
(** The minimiser starts at the current amplitudes, row after row.  It is given
    a gradient exactly when none is to be approximated and it is not CRAB's own
    minimiser. *)
Theorem C68_start {A} (s : settings A) n m o a tcs tc targ t0 o1 r args :
  well_posed s n m -> routines_ok s n m -> 0 < n ->
  let ok := fun y : list R => length y = n * m in
  used s n m grape_to_amps grape_get_vars grape_gens_ok ok (fun _ => True) o a -> runnable m (fun _ => True) tcs tc targ o ->
  prepare grape_get_vars grape_gens_ok tcs t0 o = Ok (o1, r, args) ->
  ma_x0 args = concat a /\ (ma_jac args = true <-> o_kind o <> OCrabFmin /\ o_approx o = false /\ o_crab o = false).
Proof.
  intros W RO Hn ok U HR P. pose proof (grape_coding (A := A) n m Hn) as CD.
  destruct (used_at s n m W RO _ _ _ _ _ _ CD o a U) as [Hg Hl].
  destruct (start_args _ _ _ _ _ _ _ _ P) as (K1 & K2). split; [|exact K2].
  unfold grape_get_vars in K1. rewrite (proj1 (good_amps s n m _ _ Hg)) in K1. cbn in K1. injection K1 as <-. reflexivity.
Qed.
(** For CRAB it starts at the current variables of the generators. *)
Theorem C68_start_any {A G} (get_vars : dyn A -> G -> Res (list R)) gens_ok o tcs t0 o1 r args :
  prepare get_vars gens_ok tcs t0 o = Ok (o1, r, args) ->
  get_vars (o_dyn o) (o_gens o) = Ok (ma_x0 args) /\
  (ma_jac args = true <-> o_kind o <> OCrabFmin /\ o_approx o = false /\ o_crab o = false).
Proof. apply start_args. Qed.

(** ** The gradient *)
(** Replacing one variable replaces one amplitude. *)
Lemma upd_app_l {X} (l l' : list X) i v : i < length l -> upd (l ++ l') i v = upd l i v ++ l'.
Proof. revert i; induction l as [|y l IH]; intros i H; cbn in *; [lia|]. destruct i; cbn; auto. rewrite IH by lia. auto. Qed.
Lemma upd_app_r {X} (l l' : list X) i v : upd (l ++ l') (length l + i) v = l ++ upd l' i v.
Proof. induction l as [|y l IH]; cbn; auto. rewrite IH; auto. Qed.
Lemma concat_with_entry n m a k j u : shape n m a -> k < n -> j < m ->
  concat (with_entry a k j u) = upd (concat a) (k * m + j) u.
Proof.
  intros [L F]. unfold with_entry. revert n k L F; induction a as [|row a IH]; intros n k L F Hk Hj; cbn in *; [lia|].
  inversion F as [|? ? Hr F']; subst. destruct k; cbn.
  - rewrite upd_app_l by lia. auto.
  - replace (length row + k * length row + j) with (length row + (k * length row + j)) by lia. rewrite upd_app_r.
    rewrite <- (IH (length a) k) by (auto; lia). destruct (nth_ex a k) as (q & ->); [lia|]. auto.
Qed.
Lemma shape_inj n m (a b : amps) : shape n m a -> shape n m b -> concat a = concat b -> a = b.
Proof. intros Ha Hb E. destruct (rows_flatten n m a Ha) as [<- _]. destruct (rows_flatten n m b Hb) as [<- _]. unfold flatten. rewrite E; auto. Qed.

(** Matrices of any size, an exact propagator computer, GRAPE.  The vector
    returned has at position i the partial derivative of the fidelity error
    by the i-th variable.  [smooth]: the error is differentiable at x, as in
    C11 and C12. *)
Theorem C68_gradient N rt q (s : settings (MatAlg N rt)) n m
  o a tcs tc targ t0 o1 r args evs o2 x :
  exact_routines N rt -> well_posed s n m -> sized_problem N rt q s -> diag_suits N rt s -> 0 < n ->
  let ok := fun y : list R => length y = n * m in
  used s n m grape_to_amps grape_get_vars grape_gens_ok ok (fun _ => True) o a -> runnable m (fun _ => True) tcs tc targ o ->
  prepare grape_get_vars grape_gens_ok tcs t0 o = Ok (o1, r, args) ->
  Forall (good_call s ok) evs -> do_events grape_to_amps evs o1 = Ok (o2, None) ->
  ok x -> s_prop s <> Approx ->
  (forall b, shape n m b -> concat b = x -> diag_exact_at N rt s b) ->
  (s_fid s = FTrace \/
   s_fid s = FUnit /\ forall b st d d1 v, shape n m b -> concat b = x -> session s st b [] = Ok d -> get_fidelity d = Ok (d1, v) ->
     v <> 1%R /\ (s_phopt s = PSU -> v <> 0%R)) ->
  exists o3 res g, grad_wrapper grape_to_amps x o2 = Ok (o3, res) /\ length g = n * m /\
    (forall i v, nth_error x i = Some v ->
     exists y f, nth_error g i = Some y /\
       (* f u: the error a new object reports with u in place of the i-th variable *)
       (forall u b st, shape n m b -> concat b = upd x i u -> exists e e1, session s st b [] = Ok e /\ get_fid_err e = Ok (e1, f u)) /\
       is_derive f v y) /\
    let norm := sqrt (fold_right Rplus 0 (map (fun y => y * y) g))%R in
    match res with
    | inl h => h = g /\ (tc_gradmin tc <= norm)%R
    | inr GradT => (norm < tc_gradmin tc)%R
    | inr _ => False
    end.
Proof.
  intros EX W SP HD Hn ok U HR P F E Hx HA HE HS. pose proof (mat_routines N rt EX q s n m SP HD) as RO.
  pose proof (grape_coding (A := MatAlg N rt) n m Hn) as CD.
  destruct (calling s n m W RO _ _ _ _ _ _ CD o a tcs tc targ t0 o1 r args evs o2 U HR P F E)
    as (b & tc' & AT & C1 & C2 & C3).
  destruct (wrap_grad s n m W RO _ _ _ _ _ _ CD x o2 b tc' targ t0 Hx HA AT) as (o3 & g & AT3 & C4 & G & E3).
  pose proof (rows_shape n m x Hx) as Hl. pose proof (flatten_rows n m x Hx) as Hf. unfold flatten in Hf.
  set (a0 := rows n m x) in *.
  pose proof (grad_at s n m mdexp a0 g (wp_tau _ _ _ W) Hl HA (mat_grad_routines N rt EX q s n m SP HD a0 HA (HE _ Hl Hf)) G) as G'.
  pose proof (grad_shape N rt EX q s n m SP W HD _ a0 g Hl G') as Hg.
  destruct (rows_flatten n m g Hg) as [_ Lg]. unfold flatten in Lg.
  eexists o3, _, (concat g). split; [exact E3|]. split; [auto|]. split.
  - intros i v Ei. assert (Hi : i < n * m) by (rewrite <- Hx; apply nth_error_Some; congruence).
    assert (Hm : 0 < m) by (destruct m; lia).
    pose proof (Nat.div_mod i m ltac:(lia)) as Di. pose proof (Nat.mod_upper_bound i m ltac:(lia)) as Mi.
    set (k := i / m) in *. set (j := i mod m) in *.
    assert (Hk : k < n) by (apply Nat.div_lt_upper_bound; lia).
    assert (Ii : i = k * m + j) by lia. clearbody k j.
    assert (Ev : entry a0 k j = Some v).
    { unfold entry. destruct Hl as [L1 L2]. rewrite <- (flatten_nth n m a0 L1 L2 k j Hk Mi), Hf, <- Ii. auto. }
    assert (D : exists y, grad_entry_of (A := MatAlg N rt) (dprop (A := MatAlg N rt) mdexp s) s a0 k j = Some y /\
       is_derive (fun u => fid_err_of s (with_entry a0 k j u)) v y).
    { destruct HS as [HF|[HF HV]].
      - apply (err_der_trace N rt EX q s n m SP W HD a0 k j v Hl Ev HF).
      - destruct (session_values s n m W RO true a0 [] Hl (Forall_nil _)) as (d' & _ & d2 & E' & _ & E2). specialize (E2 HF).
        destruct (HV a0 true d' d2 _ Hl Hf E' E2) as [V1 V0].
        apply (err_der_unit N rt EX q s n m SP W HD a0 k j v Hl Ev HF V1).
        intros HP Q. apply (V0 HP). cbn [latest]. unfold fidelity_of. rewrite HP, Q, Cmod_0. unfold Rdiv. ring. }
    destruct D as (y & Ey & D). exists y, (fun u => fid_err_of s (with_entry a0 k j u)). splits; auto.
    + destruct Hg as [L1 L2]. rewrite Ii. etransitivity; [apply (flatten_nth n m g L1 L2 k j Hk Mi)|].
      etransitivity; [apply G'|exact Ey].
    + intros u c st Hc Ec. assert (c = with_entry a0 k j u) as ->.
      { apply (shape_inj n m); auto; [apply with_entry_shape; auto|]. rewrite Ec, (concat_with_entry n m), Hf, <- Ii; auto. }
      destruct (session_values s n m W RO st _ [] Hc (Forall_nil _)) as (e & e1 & _ & Q1 & Q2 & _). exists e, e1; auto.
  - cbv zeta. change (sqrt (fold_right Rplus 0%R (map (fun y => (y * y)%R) (concat g)))) with (euclid g). rewrite C3 in *.
    destruct (ltR _ _) eqn:Ec; [apply ltR_spec in Ec; auto|]. apply ltR_false in Ec. auto.
Qed.

(** A qubit whose object has been queried and updated before; the minimiser
    has evaluated the error at (1, 2), reported an iteration and now asks at
    (0, 0). *)
Definition ox_tc : termcond := mkTC (Some (-1)%R) None 10 0 10.
Definition ox_evs : list event := [EvF [1; 2]%R; EvCb 0%R].
Example C68_case p po : p <> Approx ->
  let s := qubit (mid 2) p FUnit po (1/10) in
  let ok := fun y : list R => length y = 2 * 1 in
  well_posed s 2 1 /\ routines_ok s 2 1 /\
  coding (A := QAlg) 2 1 grape_to_amps grape_get_vars grape_gens_ok ok (rows 2 1) (fun _ => True) /\
  exists o o1 r args o2, used s 2 1 grape_to_amps grape_get_vars grape_gens_ok ok (fun _ => True) o zeros /\
    runnable 1 (fun _ => True) None ox_tc (-1)%R o /\
    prepare grape_get_vars grape_gens_ok None 0 o = Ok (o1, r, args) /\
    Forall (good_call s ok) ox_evs /\ do_events grape_to_amps ox_evs o1 = Ok (o2, None) /\ ok [0; 0]%R /\
    (forall b, shape 2 1 b -> concat b = [0; 0]%R -> diag_exact_at 2 qubit_routines s b) /\
    (forall b st d d1 v, shape 2 1 b -> concat b = [0; 0]%R -> session s st b [] = Ok d -> get_fidelity d = Ok (d1, v) ->
     v <> 1%R /\ (s_phopt s = PSU -> v <> 0%R)).
Proof.
  intros Hp s ok. assert (HT : matrix 2 2 (mid 2)) by (split; auto with mat).
  destruct (qx_hyps (mid 2) p FUnit po (1/10) Hp HT ltac:(lra)) as (EX & W & SP & HD & _ & Ha & F & El & HE).
  pose proof (mat_routines 2 _ EX 2 _ 2 1 SP HD) as RO. fold s in W, SP, HD, F, HE, RO.
  pose proof (grape_coding (A := QAlg) 2 1 ltac:(lia)) as CD. fold ok in CD.
  split; [auto|]. split; [auto|]. split; [auto|].
  destruct (session_ok s 2 1 W RO true qx_amps qx_ops Ha F) as (d & Ed & _).
  set (o := {| o_kind := OLBFGSB; o_crab := false; o_dyn := d; o_gens := tt; o_tc := Some ox_tc;
               o_approx := false; o_lb := BNone; o_ub := BNone; o_bounds := None;
               o_fid := 0; o_grad := 0; o_iter := 0; o_start := 0%R; o_stats := None |} : opt QAlg unit).
  assert (U : used s 2 1 grape_to_amps grape_get_vars grape_gens_ok ok (fun _ => True) o zeros).
  { rewrite <- El. eapply used_new; eauto. }
  assert (HR : runnable 1 (fun _ => True) None ox_tc (-1)%R o) by (constructor; cbn; auto).
  destruct (used_at s 2 1 W RO _ _ _ _ _ _ CD o zeros U) as [Hg Hl].
  destruct (startable s 2 1 _ _ _ _ _ _ CD _ _ _ _ _ Hg Hl HR) as (tc' & ST & T1 & T2 & T3 & _).
  destruct (prepare_ok s 2 1 W RO _ _ _ None 0%R zeros tc' (-1)%R o ST) as (o1 & r & args & P & AT & _ & _ & K1 & _).
  assert (O1 : ok [1; 2]%R) by reflexivity.
  destruct (wrap_fid s 2 1 W RO _ _ _ _ _ _ CD [1; 2]%R o1 zeros tc' (-1)%R 0%R O1 AT) as (o2 & AT2 & K2 & E2).
  assert (leR (fid_err_of s (rows 2 1 [1; 2]%R)) (-1) = false) as Q1.
  { apply leR_false. unfold fid_err_of. change (s_fid s) with FUnit.
    pose proof (Rabs_pos (1 - fidelity_of s (rows 2 1 [1; 2]%R))). lra. }
  assert (ltR (tc_calls tc') (INR (S (o_fid o1))) = false) as Q2.
  { apply ltR_false. rewrite T1, K1. cbn. lra. }
  rewrite Q1, Q2 in E2.
  assert (Q3 : exists o3, do_event grape_to_amps (EvCb 0%R) o2 = Ok (o3, None)).
  { cbn [do_event]. unfold callback, the_tc. destruct AT2 as [_ _ _ H3 _ H5]. cbn. rewrite H3, H5; cbn [bind some_or].
    assert (ltR (tc_wall tc') (0 - 0) = false) as ->; [|cbn [bind]; eauto]. apply ltR_false. rewrite T2. cbn. lra. }
  destruct Q3 as (o3 & E3).
  assert (ZS : forall b, shape 2 1 b -> concat b = [0; 0]%R -> b = zeros).
  { intros b Hb Eb. apply (shape_inj 2 1); auto. split; auto. repeat constructor. }
  exists o, o1, r, args, o3. splits; auto.
  - repeat constructor.
  - cbn [ox_evs do_events]. cbn [do_event]. rewrite E2; cbn [bind]. cbn [do_event] in E3. rewrite E3; cbn [bind]. reflexivity.
  - intros b Hb Eb. rewrite (ZS b Hb Eb). exact HE.
  - intros b st e e1 v Hb Eb Es Ev. pose proof (ZS b Hb Eb); subst b.
    destruct (session_values s 2 1 W RO st zeros [] Hb (Forall_nil _)) as (e' & _ & e2 & E' & _ & Ef).
    specialize (Ef eq_refl). rewrite E' in Es. injection Es as <-. rewrite Ef in Ev. injection Ev as _ <-.
    cbn [latest]. unfold s. rewrite zeros_fidelity. pose proof cos1. split; [|intros _]; lra.
Qed.

(** Assumptions of all theorems of this file together (listed one by one in
    ASSUMPTIONS.txt). *)
Definition propsObjective :=
  (@C68_objective,
   @C68_start,
   @C68_start_any,
   @C68_gradient).
Print Assumptions propsObjective.
