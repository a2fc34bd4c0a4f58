(** Optimisation runs follow their specification ([Spec/Stopping.v]). *)
From Coq Require Import Reals Lra String.
From Coquelicot Require Import Complex.
From RecordUpdate Require Import RecordUpdate.
From Verif.Model Require Import Base Dyn OptRun.
From Verif.Lib Require Import Lists.
From Verif.Spec Require Import Evolution History Stopping Runs.
From Verif.Proofs Require Import DynInv DynRun DynHist DynHistory DynProps DynFrame.
Local Open Scope nat_scope.
Set Bullet Behavior "Strict Subproofs".

Section Good.
Context {A : Alg} (s : settings A) (n m : nat).
Hypothesis W : well_posed s n m.
Hypothesis RO : routines_ok s n m.
Notation Good := (Good s n m).

Lemma good_amps a d : Good a d -> d_amps d = Some a /\ shape n m a.
Proof. intros (dr & c & _ & _ & _ & _ & I). split; [apply (inv_amps _ _ _ _ _ _ _ I)|apply (inv_shape _ _ _ _ _ _ _ I)]. Qed.

Lemma good_update a a' d : shape n m a' -> Good a d -> exists d', update_ctrl_amps a' d = Ok d' /\ Good a' d'.
Proof.
  intros Ha' (dr & c & Hdr & Hdrf & Hc & Hcf & I).
  destruct W as [Htau Hpos _ _ Hm Hdiagc]. destruct RO as (Hfr & Haug & Hdiag).
  destruct (update_ok s n m dr c a a' d Ha' I) as (d' & E & I' & _).
  exists d'; split; auto. exists dr, c; splits; auto.
Qed.

Lemma good_full a d : Good a d -> d_evo_cur d = true ->
  exists d', full_evo d = Ok (d', final_of s a) /\ Good a d' /\ d' = fst (get_fwd_evo d).
Proof.
  intros G C. pose proof (good_fwd s n m a d G C) as F. pose proof (good_lens s n m W RO a d G) as [L _].
  unfold full_evo. destruct (get_fwd_evo d) as [d' l] eqn:E. cbn [snd] in F. subst l.
  assert (Ed : d' = fst (get_fwd_evo d)) by (rewrite E; auto).
  assert (N : n_ts d' = n).
  { destruct G as (dr & c & _ & _ & _ & _ & I). destruct W as [Htau _ _ _ _ _].
    pose proof (st_set _ _ _ _ _ _ (inv_st _ _ _ _ _ _ _ I)) as S.
    rewrite Ed. unfold n_ts, get_fwd_evo. destruct (d_fwd_q d); cbn; rewrite S, settled_tau; auto. }
  rewrite N. rewrite (getf_ok _ _ (final_of s a)).
  - cbn. exists d'; splits; auto. rewrite Ed. destruct G as (dr & c & Hdr & Hdrf & Hc & Hcf & I).
    destruct W as [Htau Hpos _ _ Hm Hdiagc]. destruct RO as (Hfr & Haug & Hdiag).
    exists dr, c; splits; auto. apply (fwd_acc_ok s n m dr c); auto.
  - rewrite nth_seq_map by lia. cbn [Nat.add]. unfold final_of. rewrite firstn_all2; auto. lia.
Qed.

Lemma good_nc a d : Good a d -> exists d', get_num_ctrls d = Ok (d', m).
Proof.
  intros (dr & c & _ & _ & _ & _ & I). pose proof (inv_st _ _ _ _ _ _ _ I) as S.
  pose proof (st_nc _ _ _ _ _ _ S) as N. pose proof (st_map _ _ _ _ _ _ S) as M.
  pose proof (st_set _ _ _ _ _ _ S) as T. unfold get_num_ctrls. rewrite T, settled_class.
  destruct (s_class s); [|rewrite M by auto]; rewrite N; eauto.
Qed.
Lemma good_nts a d : Good a d -> n_ts d = n.
Proof.
  intros (dr & c & _ & _ & _ & _ & I). destruct W as [Htau _ _ _ _ _].
  pose proof (st_set _ _ _ _ _ _ (inv_st _ _ _ _ _ _ _ I)) as S. unfold n_ts. rewrite S, settled_tau; auto.
Qed.
End Good.

Section Run.
Context {A : Alg} (s : settings A) (n m : nat).
Hypothesis W : well_posed s n m.
Hypothesis RO : routines_ok s n m.
Variable dexp : Op A -> Op A -> Op A.
Hypothesis GR : grad_routines_ok dexp s n m.
Context {G : Type}.
Variable to_amps : list R -> dyn A -> G -> Res (G * amps).
Variable get_vars : dyn A -> G -> Res (list R).
Variable gens_ok : dyn A -> G -> bool.
Variable okx : list R -> Prop.
Variable decode : list R -> amps.
Variable Ginv : G -> Prop.
Hypothesis Hto : forall x d g a, Good s n m a d -> Ginv g -> okx x ->
  exists g', to_amps x d g = Ok (g', decode x) /\ Ginv g'.
Hypothesis Hsh : forall x, okx x -> shape n m (decode x).

Notation Good := (Good s n m).
Notation do_event := (do_event to_amps).
Notation do_events := (do_events to_amps).
Notation opt := (opt A G).
Notation gradof := (grad_is (dprop dexp s) s).

Definition ev_ok (e : event) : Prop :=
  match e with EvF x => okx x | EvG x => okx x /\ s_prop s <> Approx | EvCb _ => True end.

Record At (a : amps) (tc : termcond) (targ start : R) (o : opt) : Prop := {
  at_good : Good a (o_dyn o);
  at_link : linked (o_dyn o);
  at_gens : Ginv (o_gens o);
  at_tc : o_tc o = Some tc;
  at_targ : tc_targ tc = Some targ;
  at_start : o_start o = start;
}.

(** statistics: iteration counter [i], the others as in the object *)
Definition SC (i : nat) (o : opt) : Prop :=
  forall st, o_stats o = Some st -> st = mkOS i (o_fid o) (o_grad o).
(** gradient norm: that of the gradient at [la], or the old value *)
Definition GN (g0 : R) (la : option amps) (o : opt) : Prop :=
  match la with
  | None => gnorm (o_dyn o) = g0
  | Some b => exists g, gradof b g /\ gnorm (o_dyn o) = euclid g
  end.
Definition fixed (o o' : opt) : Prop :=
  o_kind o' = o_kind o /\ o_crab o' = o_crab o /\ o_approx o' = o_approx o /\ o_lb o' = o_lb o /\
  o_ub o' = o_ub o /\ o_bounds o' = o_bounds o /\
  (o_stats o = None <-> o_stats o' = None).
Lemma fixed_refl o : fixed o o.
Proof. unfold fixed; splits; auto; tauto. Qed.
Lemma fixed_trans o1 o2 o3 : fixed o1 o2 -> fixed o2 o3 -> fixed o1 o3.
Proof. unfold fixed. intros (? & ? & ? & ? & ? & ? & ?) (? & ? & ? & ? & ? & ? & ?). splits; try congruence; tauto. Qed.

Lemma leR_spec x y : leR x y = true <-> (x <= y)%R.
Proof. unfold leR. destruct Rle_dec; split; auto; discriminate || tauto. Qed.
Lemma leR_false x y : leR x y = false <-> (y < x)%R.
Proof. unfold leR. destruct Rle_dec; split; auto; try discriminate; lra. Qed.
Lemma ltR_spec x y : ltR x y = true <-> (x < y)%R.
Proof. unfold ltR. destruct Rlt_dec; split; auto; discriminate || tauto. Qed.
Lemma ltR_false x y : ltR x y = false <-> (y <= x)%R.
Proof. unfold ltR. destruct Rlt_dec; split; auto; try discriminate; lra. Qed.

Lemma event_ok e o a tc targ start i g0 la : ev_ok e -> At a tc targ start o -> SC i o -> GN g0 la o ->
  exists o' t, do_event e o = Ok (o', t) /\
    match t with
    | Some t => stops s dexp decode targ tc start (o_fid o) e t
    | None => forall t', ~ stops s dexp decode targ tc start (o_fid o) e t'
    end /\
    At (last_point decode a [e]) tc targ start o' /\
    GN g0 (last_grad decode la [e]) o' /\
    SC (match e, t with EvCb _, None => S (o_iter o) | _, _ => i end) o' /\
    o_fid o' = o_fid o + is_eval e /\ o_grad o' = o_grad o + is_grad e /\ o_iter o' = o_iter o + is_iter e /\
    fixed o o'.
Proof.
  intros He AT Hsc Hgn. destruct AT as [Hg Hl Hgens Htc Htarg Hstart].
  destruct e as [x|x|t]; cbn [ev_ok last_point last_grad is_eval is_grad is_iter] in *.
  - (* function *)
    cbn [OptRun.do_event]. unfold fid_wrapper.
    destruct (Hto x _ _ a Hg Hgens He) as (g' & Et & Hg').
    destruct (good_update s n m W RO a (decode x) _ (Hsh x He) Hg) as (d1 & E1 & G1).
    destruct (good_err s n m W RO _ _ G1) as (d2 & E2 & G2).
    pose proof (update_linked _ _ _ Hl E1) as L1.
    destruct (fid_err_linked _ _ _ L1 E2) as [L2 _].
    pose proof (update_gnorm _ _ _ E1) as N1. pose proof (fid_err_gnorm _ _ _ E2) as N2.
    set (o1 := match _ with Some st => _ | None => _ end).
    assert (Q : o_dyn o1 = o_dyn o /\ o_gens o1 = o_gens o /\ o_tc o1 = o_tc o /\ o_start o1 = o_start o /\
                o_fid o1 = S (o_fid o) /\ o_grad o1 = o_grad o /\ o_iter o1 = o_iter o /\ fixed o o1 /\ SC i o1).
    { unfold o1, fixed, SC. cbn. destruct (o_stats o) eqn:Es; cbn; rewrite ?Es; splits; auto; try tauto; try congruence; try (split; discriminate).
      rewrite (Hsc _ Es). intros st [= <-]. reflexivity. }
    clearbody o1. destruct Q as (Q1 & Q2 & Q3 & Q4 & Q5 & Q6 & Q7 & Q8 & Q9).
    rewrite Q1, Q2, Et; cbn [bind]. cbn. rewrite Q1, E1; cbn [bind]. unfold the_tc. cbn. rewrite Q3, Htc; cbn [bind some_or].
    rewrite E2; cbn [bind]. unfold the_targ. rewrite Htarg; cbn [bind some_or]. rewrite Q5.
    set (o2 := o1 <| o_gens := g' |> <| o_dyn := d2 |>).
    assert (AT2 : At (decode x) tc targ start o2).
    { constructor; cbn; auto; congruence. }
    assert (GN2 : GN g0 la o2).
    { unfold GN in *. cbn. rewrite N2, N1. auto. }
    assert (SC2 : SC i o2) by (intros st Est; cbn in *; auto).
    assert (FX : fixed o o2) by (eapply fixed_trans; [exact Q8|]; unfold fixed; cbn; splits; auto; tauto).
    assert (CNT : o_fid o2 = o_fid o + 1 /\ o_grad o2 = o_grad o + 0 /\ o_iter o2 = o_iter o + 0)
      by (cbn; rewrite Q5, Q6, Q7; splits; lia).
    destruct CNT as (C1 & C2 & C3).
    destruct (leR (fid_err_of s (decode x)) targ) eqn:El.
    { eexists _, _; split; [reflexivity|]. splits; auto. constructor. apply leR_spec; auto. }
    apply leR_false in El.
    destruct (ltR (tc_calls tc) (INR (S (o_fid o)))) eqn:Ec.
    { eexists _, _; split; [reflexivity|]. splits; auto. constructor; auto. apply ltR_spec; auto. }
    apply ltR_false in Ec.
    eexists _, _; split; [reflexivity|]. splits; auto. intros t' St; inversion St; subst; lra.
  - (* gradient *)
    destruct He as [He HA]. cbn [OptRun.do_event]. unfold grad_wrapper.
    destruct (Hto x _ _ a Hg Hgens He) as (g' & Et & Hg').
    destruct (good_update s n m W RO a (decode x) _ (Hsh x He) Hg) as (d1 & E1 & G1).
    destruct (good_gradient s n m W RO _ _ HA G1) as (d2 & g & E2 & G2 & Gr & N2).
    pose proof (update_linked _ _ _ Hl E1) as L1.
    pose proof (gradient_linked _ _ _ L1 E2) as L2.
    apply (grad_ext s n m dexp) in Gr; auto; [|apply W].
    set (o1 := match _ with Some st => _ | None => _ end).
    assert (Q : o_dyn o1 = o_dyn o /\ o_gens o1 = o_gens o /\ o_tc o1 = o_tc o /\ o_start o1 = o_start o /\
                o_fid o1 = o_fid o /\ o_grad o1 = S (o_grad o) /\ o_iter o1 = o_iter o /\ fixed o o1 /\ SC i o1).
    { unfold o1, fixed, SC. cbn. destruct (o_stats o) eqn:Es; cbn; rewrite ?Es; splits; auto; try tauto; try congruence; try (split; discriminate).
      rewrite (Hsc _ Es). intros st [= <-]. reflexivity. }
    clearbody o1. destruct Q as (Q1 & Q2 & Q3 & Q4 & Q5 & Q6 & Q7 & Q8 & Q9).
    rewrite Q1, Q2, Et; cbn [bind]. cbn. rewrite Q1, E1; cbn [bind]. rewrite E2; cbn [bind]. unfold the_tc. cbn. rewrite Q3, Htc; cbn [bind some_or].
    rewrite N2.
    set (o2 := o1 <| o_gens := g' |> <| o_dyn := d2 |>).
    assert (AT2 : At (decode x) tc targ start o2).
    { constructor; cbn; auto; congruence. }
    assert (GN2 : GN g0 (Some (decode x)) o2).
    { unfold GN. exists g; split; auto. }
    assert (SC2 : SC i o2) by (intros st Est; cbn in *; auto).
    assert (FX : fixed o o2) by (eapply fixed_trans; [exact Q8|]; unfold fixed; cbn; splits; auto; tauto).
    assert (CNT : o_fid o2 = o_fid o + 0 /\ o_grad o2 = o_grad o + 1 /\ o_iter o2 = o_iter o + 0)
      by (cbn; rewrite Q5, Q6, Q7; splits; lia).
    destruct CNT as (C1 & C2 & C3).
    destruct (ltR (norm2 g) (tc_gradmin tc)) eqn:Ec.
    { eexists _, _; split; [reflexivity|]. splits; auto. econstructor; eauto. apply ltR_spec; auto. }
    apply ltR_false in Ec.
    eexists _, _; split; [reflexivity|]. splits; auto. intros t' St; inversion St; subst.
    match goal with H : gradof (decode x) ?g' |- _ => rewrite (grad_is_unique _ _ _ _ _ H Gr) in * end.
    change (euclid g) with (norm2 g) in *. lra.
  - (* callback *)
    cbn [OptRun.do_event]. unfold callback, the_tc. cbn. rewrite Htc; cbn [bind some_or]. rewrite Hstart.
    destruct (ltR (tc_wall tc) (t - start)) eqn:Ec.
    { eexists _, _; split; [reflexivity|]. splits; auto.
      - constructor; apply ltR_spec; auto.
      - constructor; auto.
      - cbn; lia. 
      - cbn; lia. 
      - cbn; lia. 
      - unfold fixed; cbn; splits; auto; tauto. }
    apply ltR_false in Ec.
    set (o1 := match _ with Some st => _ | None => _ end).
    eexists o1, None; split; [reflexivity|].
    assert (Q : o_dyn o1 = o_dyn o /\ o_gens o1 = o_gens o /\ o_tc o1 = o_tc o /\ o_start o1 = o_start o /\
                o_fid o1 = o_fid o /\ o_grad o1 = o_grad o /\ o_iter o1 = S (o_iter o) /\ fixed o o1 /\ SC (S (o_iter o)) o1).
    { unfold o1, fixed, SC. cbn. destruct (o_stats o) eqn:Es; cbn; rewrite ?Es; splits; auto; try tauto; try congruence; try (split; discriminate).
      rewrite (Hsc _ Es). intros st [= <-]. reflexivity. }
    clearbody o1. destruct Q as (Q1 & Q2 & Q3 & Q4 & Q5 & Q6 & Q7 & Q8 & Q9).
    splits; auto; try lia.
    + intros t' St; inversion St; subst; lra.
    + constructor; auto; try congruence; rewrite ?Q1, ?Q2; auto.
    + unfold GN in *; rewrite Q1; auto.
Qed.

Lemma last_point_cons a e l : last_point decode a (e :: l) = last_point decode (last_point decode a [e]) l.
Proof. destruct e; reflexivity. Qed.
Lemma last_grad_cons a e l : last_grad decode a (e :: l) = last_grad decode (last_grad decode a [e]) l.
Proof. destruct e; reflexivity. Qed.

(** callbacks that did not stop the run *)
Definition survived (made : list event) (t : option term) : nat :=
  total is_iter made - match t with Some WallT => 1 | _ => 0 end.

Lemma played_wall targ tc start c evs made : played s dexp decode targ tc start c evs made (Some WallT) -> 1 <= total is_iter made.
Proof.
  intros P. remember (Some WallT) as t eqn:Et. induction P; try discriminate.
  - injection Et as ->. inversion H; cbn; lia.
  - specialize (IHP Et). unfold total in *. cbn. lia.
Qed.

Lemma events_ok evs : forall o a tc targ start i g0 la, Forall ev_ok evs -> At a tc targ start o -> SC i o -> GN g0 la o ->
  exists o' t made, do_events evs o = Ok (o', t) /\
    played s dexp decode targ tc start (o_fid o) evs made t /\
    At (last_point decode a made) tc targ start o' /\
    GN g0 (last_grad decode la made) o' /\
    SC (match survived made t with 0 => i | k => o_iter o + k end) o' /\
    o_fid o' = o_fid o + total is_eval made /\ o_grad o' = o_grad o + total is_grad made /\
    o_iter o' = o_iter o + total is_iter made /\
    fixed o o'.
Proof.
  induction evs as [|e evs IH]; intros o a tc targ start i g0 la F AT Hsc Hgn.
  - exists o, None, []. cbn. splits; auto; try lia; [constructor|apply fixed_refl].
  - inversion F as [|? ? F1 F2]; subst.
    destruct (event_ok e o a tc targ start i g0 la F1 AT Hsc Hgn) as (o1 & t & E & St & AT1 & GN1 & SC1 & C1 & C2 & C3 & FX).
    cbn [OptRun.do_events]. rewrite E; cbn [bind]. destruct t as [t|].
    + exists o1, (Some t), [e]. splits; auto.
      * constructor; auto.
      * assert (survived [e] (Some t) = 0) as -> by (unfold survived; destruct e; cbn; auto; inversion St; auto).
        destruct e; auto.
      * cbn; lia.
      * cbn; lia.
      * cbn; lia.
    + destruct (IH o1 _ tc targ start _ g0 _ F2 AT1 SC1 GN1) as (o2 & t & made & E2 & P & AT2 & GN2 & SC2 & D1 & D2 & D3 & FX2).
      exists o2, t, (e :: made). rewrite E2. splits; auto.
      * constructor; auto. rewrite <- C1; auto.
      * rewrite last_point_cons; auto.
      * rewrite last_grad_cons; auto.
      * assert (Sv : survived (e :: made) t = is_iter e + survived made t).
        { unfold survived. destruct t as [[]|]; unfold total; cbn; fold (total is_iter made); try lia.
          pose proof (played_wall _ _ _ _ _ _ P). lia. }
        intros st Est. specialize (SC2 st Est). rewrite SC2. f_equal. rewrite Sv.
        destruct e; cbn [is_iter Nat.add]; destruct (survived made t); auto; cbn [is_iter] in *; lia.
      * cbn. fold (total is_eval made). lia.
      * cbn. fold (total is_grad made). lia.
      * cbn. fold (total is_iter made). lia.
      * eapply fixed_trans; eauto.
Qed.

(** *** A whole run *)
Definition bspec_fits (b : bspec) : Prop := match b with BList l => m <= length l | _ => True end.

Lemma map_res_ok {X Y} (f : X -> Res Y) l : (forall x, In x l -> exists y, f x = Ok y) -> exists ys, map_res f l = Ok ys.
Proof.
  induction l as [|x l IH]; intros H; cbn; [eauto|].
  destruct (H x (or_introl eq_refl)) as (y & ->). destruct IH as (ys & ->); [intros; apply H; right; auto|]. cbn; eauto.
Qed.
Lemma bound_ok b c : bspec_fits b -> c < m -> exists x, bound_of b c = Ok x.
Proof. destruct b; cbn; intros H Hc; eauto. destruct (nth_ex l c) as (x & E); [lia|]. exists x. apply get_ok; auto. Qed.
Lemma build_ok lb ub : bspec_fits lb -> bspec_fits ub -> exists b, build_bounds n m lb ub = Ok b.
Proof.
  intros H1 H2. unfold build_bounds.
  destruct (map_res_ok (fun t : nat =>
          map_res (fun c => l <- bound_of lb c;; u <- bound_of ub c;; Ok (drop_inf l, drop_inf u))
                  (range m)) (range n)) as (ys & ->); [|cbn; eauto].
  intros t _. apply map_res_ok. intros c Hc. apply in_seq in Hc.
  destruct (bound_ok lb c H1 ltac:(lia)) as (x & ->). destruct (bound_ok ub c H2 ltac:(lia)) as (y & ->). cbn; eauto.
Qed.

Definition chosen (tcs : option termcond) (o : opt) : option termcond :=
  match tcs with Some tc => Some tc | None => o_tc o end.

(** An optimiser that holds the amplitudes [a] and may be run. *)
Record Startable (tcs : option termcond) (a : amps) (tc : termcond) (targ : R) (o : opt) : Prop := {
  sa_good : Good a (o_dyn o);
  sa_link : linked (o_dyn o);
  sa_gens : Ginv (o_gens o);
  sa_tc : exists tc0, chosen tcs o = Some tc0 /\ settle_targets tc0 = Ok tc;
  sa_targ : tc_targ tc = Some targ;
  sa_vars : exists x0, get_vars (o_dyn o) (o_gens o) = Ok x0;
  sa_crab : is_crab (o_kind o) = true -> gens_ok (o_dyn o) (o_gens o) = true;
  sa_lb : bspec_fits (o_lb o);
  sa_ub : bspec_fits (o_ub o);
}.

Definition first_iter (k : okind) : nat := match k with OBase | OCrab => 0 | _ => 1 end.


Lemma prepare_ok tcs t0 a tc targ o : Startable tcs a tc targ o ->
  exists o' r args, prepare get_vars gens_ok tcs t0 o = Ok (o', r, args) /\
    At a tc targ t0 o' /\ SC (first_iter (o_kind o)) o' /\ gnorm (o_dyn o') = gnorm (o_dyn o) /\
    o_fid o' = 0 /\ o_grad o' = 0 /\ o_iter o' = 0 /\ o_kind o' = o_kind o /\
    (o_stats o' = None <-> o_stats o = None) /\
    o_lb o' = o_lb o /\ o_ub o' = o_ub o /\
    r = new_result <| r_initial_fid_err := Some (fid_err_of s a) |> <| r_initial_amps := Some a |>
                   <| r_evo_initial := Some (final_of s a) |>.
Proof.
  intros [Hg Hl Hgens (tc0 & Ec & Et) Htarg (x0 & Ex) Hcrab Hlb Hub].
  unfold prepare, init_optim. cbn zeta.
  set (o1 := match tcs with Some tc1 => _ | None => _ end).
  assert (Q : o_tc o1 = Some tc0 /\ o_dyn o1 = o_dyn o /\ o_gens o1 = o_gens o /\ o_kind o1 = o_kind o /\
              o_stats o1 = o_stats o /\ o_lb o1 = o_lb o /\ o_ub o1 = o_ub o /\ o_bounds o1 = o_bounds o).
  { unfold o1, chosen in *. destruct tcs; cbn; splits; auto. }
  clearbody o1. destruct Q as (Q1 & Q2 & Q3 & Q4 & Q5 & Q6 & Q7 & Q8).
  rewrite Q1; cbn [bind]. rewrite Q2, (proj1 Hl); cbn [bind]. rewrite Et; cbn [bind].
  set (o2 := if o_crab _ then _ else _).
  assert (Z : o_tc o2 = Some tc /\ o_dyn o2 = o_dyn o /\ o_gens o2 = o_gens o /\ o_kind o2 = o_kind o /\
              o_stats o2 = o_stats o /\ o_lb o2 = o_lb o /\ o_ub o2 = o_ub o).
  { unfold o2. cbn. destruct (o_crab o1); cbn; splits; auto. }
  clearbody o2. clear o1 Q1 Q2 Q3 Q4 Q5 Q6 Q7 Q8. destruct Z as (Q1 & Q2 & Q3 & Q4 & Q5 & Q6 & Q7).
  set (o3 := match o_stats o2 with Some _ => _ | None => _ end).
  assert (Z : o_tc o3 = Some tc /\ o_dyn o3 = o_dyn o /\ o_gens o3 = o_gens o /\ o_kind o3 = o_kind o /\
              o_lb o3 = o_lb o /\ o_ub o3 = o_ub o /\ (o_stats o3 = None <-> o_stats o = None) /\
              forall st, o_stats o3 = Some st -> st = mkOS 0 0 0).
  { unfold o3. rewrite Q5. destruct (o_stats o) eqn:Es; cbn; splits; auto; try (split; discriminate); try congruence.
    rewrite Q5. tauto. }
  clearbody o3. clear o2 Q1 Q2 Q3 Q4 Q5 Q6 Q7. destruct Z as (Q1 & Q2 & Q3 & Q4 & Q6 & Q7 & Q8 & Q9).
  cbn. rewrite Q2, Q3, Q4.
  assert (is_crab (o_kind o) && negb (gens_ok (o_dyn o) (o_gens o)) = false) as ->.
  { destruct (is_crab (o_kind o)) eqn:Ek; auto. rewrite Hcrab; auto. }
  cbn [bind]. cbn. rewrite Q2, Q3, Ex; cbn [bind].
  set (o4 := match o_stats o3 with Some st => _ | None => _ end).
  assert (Z : o_tc o4 = Some tc /\ o_dyn o4 = o_dyn o /\ o_gens o4 = o_gens o /\ o_kind o4 = o_kind o /\
              o_lb o4 = o_lb o /\ o_ub o4 = o_ub o /\ (o_stats o4 = None <-> o_stats o = None) /\
              o_start o4 = t0 /\ o_fid o4 = 0 /\ o_grad o4 = 0 /\ o_iter o4 = 0 /\
              SC (first_iter (o_kind o)) o4).
  { unfold o4, SC. destruct (o_stats o3) as [st0|] eqn:Es; cbn; splits; auto; try tauto.
    - rewrite <- Q8. split; discriminate.
    - intros st [= <-]. rewrite (Q9 _ eq_refl), Q4. reflexivity.
    - rewrite Es; discriminate. }
  clearbody o4. clear o3 Q1 Q2 Q3 Q4 Q6 Q7 Q8 Q9. destruct Z as (Q1 & Q2 & Q3 & Q4 & Q6 & Q7 & Q8 & Q9 & Q10 & Q11 & Q12 & Q13).
  assert (Z : exists o5, settle_bounds o4 = Ok o5 /\ exists b, o5 = o4 <| o_bounds := b |>).
  { unfold settle_bounds. rewrite Q2, Q4, Q6, Q7, (good_nts s n m W a _ Hg).
    destruct (good_nc s n m a _ Hg) as (dd & Enc). destruct (build_ok _ _ Hlb Hub) as (b & Eb).
    destruct (o_kind o).
    - destruct (o_bounds o4) eqn:Eo.
      + exists o4; split; auto. exists (o_bounds o4). destruct o4; reflexivity.
      + rewrite Enc; cbn [bind]. rewrite Eb; cbn [bind]. eauto.
    - exists o4; split; auto. exists (o_bounds o4). destruct o4; reflexivity.
    - rewrite Enc; cbn [bind]. rewrite Eb; cbn [bind]. eauto.
    - exists o4; split; auto. exists (o_bounds o4). destruct o4; reflexivity.
    - exists o4; split; auto. exists (o_bounds o4). destruct o4; reflexivity. }
  destruct Z as (o5 & -> & b & ->). cbn [bind]. unfold create_result. cbn. rewrite Q2.
  destruct (good_err s n m W RO _ _ Hg) as (d1 & E1 & G1). rewrite E1; cbn [bind].
  destruct (fid_err_linked _ _ _ Hl E1) as [L1 C1]. destruct (good_amps s n m _ _ G1) as [Ea _]. rewrite Ea; cbn [bind some_or].
  destruct (good_full s n m W RO _ _ G1 C1) as (d2 & E2 & G2 & Ed2). rewrite E2; cbn [bind].
  eexists _, _, _; split; [reflexivity|]. splits; cbn; auto.
  - constructor; cbn; auto; try congruence.
    + rewrite Ed2; apply fwd_linked; auto.
  - rewrite Ed2. rewrite fwd_gnorm, (fid_err_gnorm _ _ _ E1). reflexivity.
Qed.

Lemma common_ok a tc targ start t0 t1 o r i g0 la : At a tc targ start o -> SC i o -> GN g0 la o ->
  exists o' r', add_common t0 t1 o r = Ok (o', r') /\ At a tc targ start o' /\ GN g0 la o' /\
    o_kind o' = o_kind o /\ o_lb o' = o_lb o /\ o_ub o' = o_ub o /\ o_gens o' = o_gens o /\
    r' = r <| r_iter := o_iter o |> <| r_calls := o_fid o |> <| r_time := (t1 - t0)%R |>
           <| r_fid_err := Some (fid_err_of s a) |> <| r_gradnorm := gnorm (o_dyn o) |>
           <| r_final_amps := Some a |> <| r_evo_final := Some (final_of s a) |> <| r_stats := o_stats o |>.
Proof.
  intros AT Hsc Hgn. destruct AT as [Hg Hl Hgens Htc Htarg Hstart].
  unfold add_common.
  destruct (good_err s n m W RO _ _ Hg) as (d1 & E1 & G1). rewrite E1; cbn [bind].
  destruct (fid_err_linked _ _ _ Hl E1) as [L1 C1]. destruct (good_amps s n m _ _ G1) as [Ea _].
  destruct (good_full s n m W RO _ _ G1 C1) as (d2 & E2 & G2 & Ed2). rewrite E2; cbn [bind].
  pose proof (fid_err_gnorm _ _ _ E1) as N1.
  eexists _, _; split; [reflexivity|]. splits; cbn; auto.
  - constructor; cbn; auto. rewrite Ed2; apply fwd_linked; auto.
  - unfold GN in *. cbn. rewrite Ed2, fwd_gnorm, N1. auto.
  - unfold gnorm in N1 at 1. rewrite N1, Ea. reflexivity.
Qed.

(** The point the run ends at. *)
Definition end_point (a : amps) (made : list event) (t : option term) (fin : ending) : amps :=
  match t, fin with
  | None, Returns x _ _ _ => decode x
  | _, _ => last_point decode a made
  end.
Definition ending_ok (fin : ending) : Prop := match fin with Returns x _ _ _ => okx x | Crashes _ => True end.

Lemma run_ok tcs t0 t1 evs fin a tc targ o :
  Startable tcs a tc targ o -> Forall ev_ok evs -> ending_ok fin ->
  exists made t, played s dexp decode targ tc t0 0 evs made t /\
  match t, fin with
  | None, Crashes e => run_optimization to_amps get_vars gens_ok tcs t0 t1 evs fin o = Raise e
  | _, _ =>
    exists o' r g, run_optimization to_amps get_vars gens_ok tcs t0 t1 evs fin o = Ok (o', r) /\
      let b := end_point a made t fin in
      At b tc targ t0 o' /\ o_kind o' = o_kind o /\ o_lb o' = o_lb o /\ o_ub o' = o_ub o /\
      (match last_grad decode None made with
       | None => g = gnorm (o_dyn o)
       | Some x => exists G, gradof x G /\ g = euclid G
       end) /\
      r = match t, fin with
          | Some t, _ => interpret t
          | None, Returns _ nit warn msg => interpret_return (o_kind o) nit warn msg
          | None, Crashes _ => fun r => r
          end (new_result <| r_initial_fid_err := Some (fid_err_of s a) |> <| r_initial_amps := Some a |>
                          <| r_evo_initial := Some (final_of s a) |>)
          <| r_iter := total is_iter made |> <| r_calls := total is_eval made |> <| r_time := (t1 - t0)%R |>
          <| r_fid_err := Some (fid_err_of s b) |> <| r_gradnorm := g |>
          <| r_final_amps := Some b |> <| r_evo_final := Some (final_of s b) |>
          <| r_stats := match o_stats o with
                        | None => None
                        | Some _ => Some (mkOS (match survived made t with 0 => first_iter (o_kind o) | k => k end)
                                               (total is_eval made) (total is_grad made))
                        end |>
  end.
Proof.
  intros HS HE HF. unfold run_optimization.
  destruct (prepare_ok tcs t0 a tc targ o HS) as (o1 & r1 & args & -> & AT1 & SC1 & N1 & K1 & K2 & K3 & K4 & K5 & K6 & K7 & Er).
  cbn [bind].
  assert (GN1 : GN (gnorm (o_dyn o)) None o1) by (unfold GN; auto).
  destruct (events_ok evs o1 a tc targ t0 _ _ _ HE AT1 SC1 GN1) as (o2 & t & made & E2 & P & AT2 & GN2 & SC2 & D1 & D2 & D3 & FX).
  destruct FX as (X1 & X2 & X3 & X4 & X5 & X6 & X7).
  exists made, t. rewrite E2; cbn [bind]. rewrite K1 in *. split; auto.
  assert (ST : o_stats o2 = match o_stats o with
                        | None => None
                        | Some _ => Some (mkOS (match survived made t with 0 => first_iter (o_kind o) | k => k end)
                                               (total is_eval made) (total is_grad made))
                        end).
  { destruct (o_stats o2) as [st|] eqn:Es.
    - rewrite (SC2 _ Es). destruct (o_stats o) eqn:Eo.
      + rewrite D1, D2, K2. cbn. rewrite K3. destruct (survived made t); auto.
      + exfalso. assert (Some st = None) by tauto. discriminate.
    - destruct (o_stats o) eqn:Eo; auto. exfalso.
      assert (Some o0 = None) by tauto. discriminate. }
  assert (CASE : forall o3 rr b, At b tc targ t0 o3 -> SC (match survived made t with 0 => first_iter (o_kind o) | S k => o_iter o1 + S k end) o3 ->
            GN (gnorm (o_dyn o)) (last_grad decode None made) o3 ->
            o_stats o3 = o_stats o2 -> o_iter o3 = o_iter o2 -> o_fid o3 = o_fid o2 -> o_kind o3 = o_kind o2 ->
            o_lb o3 = o_lb o2 -> o_ub o3 = o_ub o2 ->
            exists o' r g, add_common t0 t1 o3 rr = Ok (o', r) /\
            At b tc targ t0 o' /\ o_kind o' = o_kind o /\ o_lb o' = o_lb o /\ o_ub o' = o_ub o /\
      (match last_grad decode None made with
       | None => g = gnorm (o_dyn o)
       | Some x => exists G, gradof x G /\ g = euclid G
       end) /\
      r = rr <| r_iter := total is_iter made |> <| r_calls := total is_eval made |> <| r_time := (t1 - t0)%R |>
          <| r_fid_err := Some (fid_err_of s b) |> <| r_gradnorm := g |>
          <| r_final_amps := Some b |> <| r_evo_final := Some (final_of s b) |>
          <| r_stats := match o_stats o with
                        | None => None
                        | Some _ => Some (mkOS (match survived made t with 0 => first_iter (o_kind o) | k => k end)
                                               (total is_eval made) (total is_grad made))
                        end |>).
  { intros o3 rr b AT3 SC3 GN3 Y1 Y2 Y3 Y4 Y5 Y6.
    destruct (common_ok b tc targ t0 t0 t1 o3 rr _ _ _ AT3 SC3 GN3) as (o4 & r4 & E4 & AT4 & GN4 & Z1 & Z2 & Z3 & Z4 & Er4).
    exists o4, r4, (gnorm (o_dyn o3)). splits; auto; try congruence.
    - rewrite Er4, Y1, Y2, Y3, ST, D1, D3, K3. reflexivity. }
  unfold after_events. destruct t as [t|].
  - destruct (CASE o2 (interpret t r1) (last_point decode a made)) as (o' & r & g & E & Z1 & Z2 & Z3 & Z4 & Z5 & Z6); auto.
    exists o', r, g. rewrite E, Er in *. splits; auto.
  - destruct fin as [x nit warn msg|e]; auto.
    cbn [ending_ok] in HF.
    destruct (Hto x _ _ _ (at_good _ _ _ _ _ AT2) (at_gens _ _ _ _ _ AT2) HF) as (g' & Et & Hg'). rewrite Et; cbn [bind].
    destruct (good_update s n m W RO _ (decode x) _ (Hsh x HF) (at_good _ _ _ _ _ AT2)) as (d3 & E3 & G3).
    cbn. rewrite E3; cbn [bind]. pose proof (update_linked _ _ _ (at_link _ _ _ _ _ AT2) E3) as L3.
    pose proof (update_gnorm _ _ _ E3) as N3.
    destruct (CASE (o2 <| o_gens := g' |> <| o_dyn := d3 |>) (interpret_return (o_kind o2) nit warn msg r1) (decode x))
      as (o' & r & g & E & Z1 & Z2 & Z3 & Z4 & Z5 & Z6); cbn; auto.
    { destruct AT2; constructor; cbn; auto. }
    { unfold GN in *. cbn. destruct (last_grad decode None made); rewrite N3; auto. }
    exists o', r, g. rewrite E, Er, X1, K4 in *. splits; auto.
Qed.
End Run.

(** *** The same for the vocabulary of [Spec/Runs.v] *)
Section Wrap.
Context {A : Alg} (s : settings A) (n m : nat).
Hypothesis W : well_posed s n m.
Hypothesis RO : routines_ok s n m.
Variable dexp : Op A -> Op A -> Op A.
Hypothesis GR : grad_routines_ok dexp s n m.
Context {G : Type}.
Variable to_amps : list R -> dyn A -> G -> Res (G * amps).
Variable get_vars : dyn A -> G -> Res (list R).
Variable gens_ok : dyn A -> G -> bool.
Variable okx : list R -> Prop.
Variable decode : list R -> amps.
Variable okg : G -> Prop.
Hypothesis CD : coding n m to_amps get_vars gens_ok okx decode okg.
Notation Good := (Good s n m).
Notation used := (used s n m to_amps get_vars gens_ok okx okg).

Lemma Hto : forall x d g a, Good a d -> okg g -> okx x ->
  exists g', to_amps x d g = Ok (g', decode x) /\ okg g'.
Proof.
  intros x d g a Hg Hgg Hx. destruct (good_amps s n m a d Hg) as [E S].
  eapply (cd_amps _ _ _ _ _ _ _ _ CD); eauto. eapply good_nts; eauto. eapply good_nc; eauto.
Qed.

Lemma settle_ok tc targ : target_of tc = Some targ ->
  exists tc', settle_targets tc = Ok tc' /\ tc_targ tc' = Some targ /\ tc_calls tc' = tc_calls tc /\
    tc_wall tc' = tc_wall tc /\ tc_gradmin tc' = tc_gradmin tc /\
    tc_goal tc' = Some (match tc_goal tc with Some g => g | None => 1 - targ end)%R.
Proof.
  unfold target_of, settle_targets. destruct (tc_targ tc) eqn:Et, (tc_goal tc) eqn:Eg; intros [= <-];
    eexists; splits; try reflexivity; auto.
Qed.

Lemma startable tcs tc targ o a : Good a (o_dyn o) -> linked (o_dyn o) -> runnable m okg tcs tc targ o ->
  exists tc', Startable s n m get_vars gens_ok okg tcs a tc' targ o /\ tc_calls tc' = tc_calls tc /\
    tc_wall tc' = tc_wall tc /\ tc_gradmin tc' = tc_gradmin tc /\
    tc_goal tc' = Some (match tc_goal tc with Some g => g | None => 1 - targ end)%R.
Proof.
  intros Hg Hl [Q1 Q2 Q3 Q4 Q5]. destruct (settle_ok _ _ Q2) as (tc' & E & T & C1 & C2 & C3 & C4).
  destruct (good_amps s n m a _ Hg) as [Ea Sa].
  exists tc'; splits; auto. constructor; auto.
  - exists tc; split; auto.
  - eapply (cd_vars _ _ _ _ _ _ _ _ CD); eauto.
  - intros _. eapply (cd_gens _ _ _ _ _ _ _ _ CD); eauto. eapply good_nc; eauto.
Qed.

Lemma stops_ext targ tc tc' start c e t : tc_calls tc' = tc_calls tc ->
    tc_wall tc' = tc_wall tc -> tc_gradmin tc' = tc_gradmin tc ->
  stops s dexp decode targ tc' start c e t -> stops s dexp decode targ tc start c e t.
Proof.
  intros E1 E2 E3 St; inversion St; subst; [constructor|constructor|econstructor|constructor]; eauto; congruence.
Qed.
Lemma played_ext targ tc tc' start c evs made t : tc_calls tc' = tc_calls tc ->
    tc_wall tc' = tc_wall tc -> tc_gradmin tc' = tc_gradmin tc ->
  played s dexp decode targ tc' start c evs made t -> played s dexp decode targ tc start c evs made t.
Proof.
  intros E1 E2 E3 P. induction P; [constructor|constructor|constructor]; auto.
  - eapply stops_ext; [ | | |eauto]; auto.
  - intros t' St. apply (H t'). eapply stops_ext; [ | | |exact St]; auto.
Qed.

(** Everything about one run. *)
Lemma run_full o a tcs tc targ t0 t1 evs fin :
  Good a (o_dyn o) -> linked (o_dyn o) -> runnable m okg tcs tc targ o ->
  Forall (good_call s okx) evs -> good_end okx fin ->
  exists made t, played s dexp decode targ tc t0 0 evs made t /\
  match t, fin with
  | None, Crashes e => run_optimization to_amps get_vars gens_ok tcs t0 t1 evs fin o = Raise e
  | _, _ =>
    exists o' r g, run_optimization to_amps get_vars gens_ok tcs t0 t1 evs fin o = Ok (o', r) /\
      let b := end_point decode a made t fin in
      Good b (o_dyn o') /\ linked (o_dyn o') /\ okg (o_gens o') /\
      o_kind o' = o_kind o /\ o_lb o' = o_lb o /\ o_ub o' = o_ub o /\
      (match last_grad decode None made with
       | None => g = gnorm (o_dyn o)
       | Some x => exists G, grad_is (dprop dexp s) s x G /\ g = euclid G
       end) /\
      r = match t, fin with
          | Some t, _ => interpret t
          | None, Returns _ nit warn msg => interpret_return (o_kind o) nit warn msg
          | None, Crashes _ => fun r => r
          end (new_result <| r_initial_fid_err := Some (fid_err_of s a) |> <| r_initial_amps := Some a |>
                          <| r_evo_initial := Some (final_of s a) |>)
          <| r_iter := total is_iter made |> <| r_calls := total is_eval made |> <| r_time := (t1 - t0)%R |>
          <| r_fid_err := Some (fid_err_of s b) |> <| r_gradnorm := g |>
          <| r_final_amps := Some b |> <| r_evo_final := Some (final_of s b) |>
          <| r_stats := match o_stats o with
                        | None => None
                        | Some _ => Some (mkOS (match survived made t with 0 => first_iter (o_kind o) | k => k end)
                                               (total is_eval made) (total is_grad made))
                        end |>
  end.
Proof.
  intros Hg Hl HR HE HF. destruct (startable _ _ _ _ _ Hg Hl HR) as (tc' & ST & C1 & C2 & C3 & _).
  destruct (run_ok s n m W RO dexp GR to_amps get_vars gens_ok okx decode okg Hto (cd_shape _ _ _ _ _ _ _ _ CD)
              tcs t0 t1 evs fin a tc' targ o ST HE HF) as (made & t & P & Q).
  exists made, t; split; [eapply played_ext; [ | | |exact P]; auto|].
  destruct t as [t|]; [|destruct fin as [x nit warn msg|e]; auto];
    destruct Q as (o' & r & g & E & AT & K1 & K2 & K3 & K4 & K5); exists o', r, g; split; auto; destruct AT; cbv zeta; splits; auto.
Qed.

(** The conditions it leaves behind. *)
Lemma run_conditions o a tcs tc targ t0 t1 evs fin o' r :
  Good a (o_dyn o) -> linked (o_dyn o) -> runnable m okg tcs tc targ o ->
  Forall (good_call s okx) evs -> good_end okx fin ->
  run_optimization to_amps get_vars gens_ok tcs t0 t1 evs fin o = Ok (o', r) ->
  exists tc', o_tc o' = Some tc' /\ tc_targ tc' = Some targ /\
    tc_goal tc' = Some (match tc_goal tc with Some g => g | None => 1 - targ end)%R /\
    tc_calls tc' = tc_calls tc /\ tc_wall tc' = tc_wall tc /\ tc_gradmin tc' = tc_gradmin tc.
Proof.
  intros Hg Hl HR HE HF E. destruct (startable _ _ _ _ _ Hg Hl HR) as (tc' & ST & C1 & C2 & C3 & C4).
  destruct (run_ok s n m W RO dexp GR to_amps get_vars gens_ok okx decode okg Hto (cd_shape _ _ _ _ _ _ _ _ CD)
              tcs t0 t1 evs fin a tc' targ o ST HE HF) as (made & t & P & Q).
  exists tc'. destruct t as [t|]; [|destruct fin as [x nit warn msg|e]; [|congruence]];
    destruct Q as (o2 & r2 & g & E2 & AT & _); rewrite E in E2; injection E2 as <- <-; destruct AT; splits; auto.
Qed.

Lemma run_good_linked ops (o : opt A G) a d : Good a (o_dyn o) -> linked (o_dyn o) -> Forall (call_ok s n m) ops ->
  Dyn.run ops (o_dyn o) = Ok d -> Good (latest a ops) d /\ linked d.
Proof.
  intros (dr & c & Hdr & Hdrf & Hc & Hcf & I) L F E. split; [|eapply run_linked; eauto].
  destruct W as [Htau Hpos _ _ Hm Hdiagc]. destruct RO as (Hfr & Haug & Hdiag).
  destruct (DynHistory.run_ok s n m dr c Htau Hpos Hdr Hdrf Hc Hcf Hm Hdiagc Hfr Haug Hdiag ops a _ F I) as (d' & E' & I' & _).
  rewrite E in E'. injection E' as <-. exists dr, c; splits; auto.
Qed.

Lemma used_good o a : used o a -> Good a (o_dyn o) /\ linked (o_dyn o).
Proof.
  intros U. induction U as [st a ops d o Ha F E Ed|o a ops d o' U [IH1 IH2] F E Ed|o a tcs tc targ t0 t1 evs fin o' r b U [IH1 IH2] HR HE HF E Eb].
  - destruct (session_ok s n m W RO st a ops Ha F) as (d' & E' & Gd & _). rewrite E in E'. injection E' as <-. subst d.
    split; auto. unfold session in E. destruct (initialize_controls a (new_dyn s st)) as [d0|] eqn:E0; [|discriminate].
    cbn [bind] in E. eapply run_linked; [|exact E]. eapply initialize_linked; eauto.
  - subst d. eapply run_good_linked; eauto.
  - destruct (run_full o a tcs tc targ t0 t1 evs fin IH1 IH2 HR HE HF) as (made & t & P & Q).
    destruct t as [t|]; [|destruct fin as [x nit warn msg|e]; [|congruence]];
      destruct Q as (o2 & r2 & g & E2 & G2 & L2 & _ & _ & _ & _ & _ & Er); rewrite E in E2; injection E2 as <- <-;
      rewrite Er in Eb; cbn in Eb; injection Eb as <-; auto.
Qed.
End Wrap.
