(** Logging and the computation. *)
From Coq Require Import Reals Lra.
From Coquelicot Require Import Complex.
From RecordUpdate Require Import RecordUpdate.
From Verif.Model Require Import Base Dyn Verbose.
From Verif.Lib Require Import Lists.
From Verif.Spec Require Import Evolution History Loud.
From Verif.Proofs Require Import DynInv DynRun DynHist DynHistory DynFrame.
Local Open Scope nat_scope.
Set Bullet Behavior "Strict Subproofs".

(** ** A result that is returned is the plain one *)
Definition le {X} (r1 r2 : Res X) : Prop := forall x, r1 = Ok x -> r2 = Ok x.

Lemma le_refl {X} (r : Res X) : le r r. Proof. intros x; auto. Qed.
Lemma le_raise {X} e (r : Res X) : le (Raise e) r. Proof. intros x; discriminate. Qed.
Lemma le_bind {X Y} (m1 m2 : Res X) (k1 k2 : X -> Res Y) :
  le m1 m2 -> (forall x, le (k1 x) (k2 x)) -> le (bind m1 k1) (bind m2 k2).
Proof. intros Hm Hk y H. destruct m1 as [x|]; cbn in H; [|discriminate]. rewrite (Hm x eq_refl). cbn. now apply Hk. Qed.
Lemma le_for {S} l (f g : nat -> S -> Res S) s : (forall k s, le (f k s) (g k s)) -> le (for_each l f s) (for_each l g s).
Proof. intros H. revert s. induction l as [|k l IH]; intros s; cbn; [apply le_refl|]. apply le_bind; auto. Qed.
Lemma le_eq {X} (r1 r2 : Res X) : r1 = r2 -> le r1 r2. Proof. intros ->; apply le_refl. Qed.

Lemma for_ext {S} l (f g : nat -> S -> Res S) s : (forall k s, f k s = g k s) -> for_each l f s = for_each l g s.
Proof. intros H. revert s. induction l as [|k l IH]; intros s; cbn; auto. rewrite H. destruct (g k s); cbn; auto. Qed.
Lemma bind_assoc {X Y Z} (m : Res X) (f : X -> Res Y) (g : Y -> Res Z) :
  bind (bind m f) g = bind m (fun x => bind (f x) g).
Proof. now destruct m. Qed.
Lemma bind_ext {X Y} (m : Res X) (f g : X -> Res Y) : (forall x, m = Ok x -> f x = g x) -> bind m f = bind m g.
Proof. intros H. destruct m; cbn; auto. Qed.
Lemma bind_ret {X} (m : Res X) : bind m (fun x => Ok x) = m. Proof. now destruct m. Qed.

Section Verbose.
Context {A : Alg} (unit : Op A -> bool) (lv : levels).
Notation dyn := (dyn A).

(** ** The check writes nothing *)
Lemma check_slot_same level k (d d' : dyn) : check_slot unit level k d = Ok d' -> d' = d.
Proof. unfold check_slot; intros H; inv_ok; auto. Qed.
Lemma after_same (d d' : dyn) : after_v unit lv d = Ok d' -> d' = d.
Proof.
  unfold after_v; intros H; inv_ok; auto.
  eapply (for_each_inv (fun x => x = d)) in H; auto. intros k x x' -> E. now apply check_slot_same in E.
Qed.

Lemma step_prop_le nc k (d : dyn) : le (step_prop_v lv nc k d) (step_prop nc k d).
Proof.
  unfold step_prop_v, step_prop. destruct (_ && _); [|apply le_refl].
  apply le_for. intros j s. apply le_bind; [apply le_refl|]. intros [d1 [p g]]. apply le_bind; [apply le_refl|]. intros d2.
  intros x H. apply bind_inv in H. destruct H as (d3 & E & H). destruct (_ && _); [discriminate|]. injection H as <-. exact E.
Qed.
Lemma recompute_le (d : dyn) : le (recompute_v unit lv d) (recompute_evolution d).
Proof.
  unfold recompute_v, recompute_evolution. apply le_bind; [apply le_refl|]. intros [d1 nc].
  apply le_bind; [apply le_refl|]. intros d2.
  apply le_bind; [apply le_for; intros; apply step_prop_le|]. intros d3.
  apply le_bind; [apply le_refl|]. intros d4. apply le_bind; [apply le_refl|]. intros d5.
  intros x H. apply bind_inv in H. destruct H as (d6 & E & H). apply after_same in H. now subst.
Qed.
Lemma evolution_le (d : dyn) : le (evolution_v unit lv d) (compute_evolution d).
Proof.
  unfold evolution_v, compute_evolution. destruct (d_evo_cur d); [apply le_refl|].
  apply le_bind; [apply recompute_le|intros; apply le_refl].
Qed.

Ltac lb := apply le_bind; [try apply le_refl|intros; try apply le_refl].
Lemma prenorm_le (d : dyn) : le (prenorm_v unit lv d) (get_fidelity_prenorm d).
Proof. unfold prenorm_v, get_fidelity_prenorm. destruct (f_pre_cur _); [apply le_refl|]. cbv zeta. lb. apply evolution_le. Qed.
Lemma fidelity_le (d : dyn) : le (fidelity_v unit lv d) (get_fidelity d).
Proof. unfold fidelity_v, get_fidelity. destruct (s_fid _); [|apply le_refl]. destruct (f_fid_cur _); [apply le_refl|]. lb. apply prenorm_le. Qed.
Lemma fid_err_le (d : dyn) : le (fid_err_v unit lv d) (get_fid_err d).
Proof.
  unfold fid_err_v, get_fid_err. destruct (s_fid _); [lb; apply fidelity_le|]. destruct (f_fid_cur _); [apply le_refl|].
  lb. apply evolution_le.
Qed.
Lemma fid_grad_le (d : dyn) : le (fid_grad_v unit lv d) (compute_fid_grad d).
Proof. unfold fid_grad_v, compute_fid_grad. lb. destruct x. cbv zeta. lb. apply evolution_le. Qed.
Lemma err_grad_le (d : dyn) : le (err_grad_v unit lv d) (compute_fid_err_grad d).
Proof. unfold err_grad_v, compute_fid_err_grad. lb. destruct x. cbv zeta. lb. apply evolution_le. Qed.
Lemma gradient_le (d : dyn) : le (gradient_v unit lv d) (get_fid_err_gradient d).
Proof.
  unfold gradient_v, get_fid_err_gradient. destruct (f_grad_cur _); [apply le_refl|].
  apply le_bind; [|intros; apply le_refl]. destruct (s_fid _); [|apply err_grad_le].
  apply le_bind; [apply fid_grad_le|]. intros [d1 gp]. apply le_bind; [apply fidelity_le|]. intros [d2 f].
  apply le_bind; [apply prenorm_le|intros; apply le_refl].
Qed.
Lemma step_le o (d : dyn) : le (step_v unit lv o d) (step o d).
Proof.
  destruct o; cbn [step_v step]; unfold lift; try apply le_refl.
  - lb. apply evolution_le.
  - lb. apply fid_err_le.
  - lb. apply fidelity_le.
  - lb. apply gradient_le.
Qed.
Lemma run_le ops : forall d : dyn, le (run_v unit lv ops d) (run ops d).
Proof. induction ops as [|o ops IH]; intros d; cbn; [apply le_refl|]. apply le_bind; [apply step_le|auto]. Qed.

(** ** The settings stay *)
Definition ks (d d' : dyn) : Prop := d_set d' = d_set d.
Lemma combine_ks k d d' : combine_dyn_gen k d = Ok d' -> ks d d'.
Proof. unfold combine_dyn_gen; intros H; inv_ok; reflexivity. Qed.
Lemma spectral_ks k d d' : spectral_decomp k d = Ok d' -> ks d d'.
Proof. unfold spectral_decomp; intros H; inv_ok; reflexivity. Qed.
Lemma ensure_ks k d d' : ensure_decomp_curr k d = Ok d' -> ks d d'.
Proof. unfold ensure_decomp_curr; intros H; inv_ok; try reflexivity. eapply spectral_ks; eauto. Qed.
Lemma prop_ks k d d' p : compute_propagator k d = Ok (d', p) -> ks d d'.
Proof. unfold compute_propagator; intros H; inv_ok; try reflexivity. eapply ensure_ks; eauto. Qed.
Lemma pgrad_ks k j d d' p : compute_prop_grad k j d = Ok (d', p) -> ks d d'.
Proof.
  unfold compute_prop_grad; intros H; inv_ok; try reflexivity.
  unfold ks. etransitivity; [eapply prop_ks; eauto|eapply ensure_ks; eauto].
Qed.
Lemma set_pg_ks d k j g d' : set_pg d k j g = Ok d' -> ks d d'.
Proof. unfold set_pg; intros H; inv_ok; reflexivity. Qed.
Lemma gen_ks k d d' : step_dyn_gen k d = Ok d' -> ks d d'.
Proof. unfold step_dyn_gen; intros H; inv_ok; match goal with H : combine_dyn_gen _ _ = _ |- _ => apply combine_ks in H end; auto. Qed.
Lemma step_prop_ks nc k d d' : step_prop nc k d = Ok d' -> ks d d'.
Proof.
  unfold step_prop; intros H; inv_ok.
  - eapply (for_each_inv (ks d)); eauto; [reflexivity|]. cbv beta. intros j x x' K E.
    apply bind_inv in E; destruct E as ((d1 & p & g) & E1 & E).
    apply bind_inv in E; destruct E as (d2 & E2 & E3). apply pgrad_ks in E1. apply set_pg_ks in E3.
    assert (K2 : ks d1 d2) by (inv_ok; reflexivity). unfold ks in *; congruence.
  - match goal with H : compute_propagator _ _ = _ |- _ => apply prop_ks in H end. auto.
Qed.

(** ** When the messages are harmless *)
Lemma step_prop_quiet nc k (d : dyn) : 6 < lv_tslot lv \/ exact_cached (d_set d) = false -> step_prop_v lv nc k d = step_prop nc k d.
Proof.
  intros H. unfold step_prop_v, step_prop.
  destruct (grad_exact _ && _) eqn:E; [|reflexivity].
  destruct H as [H|H]; [|exfalso; unfold exact_cached in H; destruct (s_prop (d_set d)); cbn in E; congruence].
  apply for_ext. intros j x. apply bind_ext. intros [d1 [p g]] _. apply bind_ext. intros d2 _.
  destruct (Nat.leb_spec (lv_tslot lv) DEBUG_INTENSE) as [L|L]; [unfold DEBUG_INTENSE in L; lia|]. rewrite andb_false_r. apply bind_ret.
Qed.
Lemma props_quiet nc l : forall d : dyn, 6 < lv_tslot lv \/ exact_cached (d_set d) = false ->
  for_each l (step_prop_v lv nc) d = for_each l (step_prop nc) d.
Proof.
  induction l as [|k l IH]; intros d H; cbn; auto. rewrite (step_prop_quiet nc k d H). apply bind_ext. intros d1 E.
  apply IH. destruct H; auto. right. apply step_prop_ks in E. unfold ks in E. congruence.
Qed.
Lemma recompute_quiet (d : dyn) :
  6 < lv_tslot lv \/ (forall d1 nc, get_num_ctrls d = Ok (d1, nc) -> exact_cached (d_set d1) = false) ->
  recompute_v unit lv d = (d' <- recompute_evolution d;; after_v unit lv d').
Proof.
  intros H. unfold recompute_v, recompute_evolution. rewrite bind_assoc. apply bind_ext. intros [d1 nc] E1.
  set (d2 := match d_stats _ with Some st => _ | None => _ end).
  assert (S2 : d_set d2 = d_set d1) by (unfold d2; cbn; destruct (d_stats d1); reflexivity).
  rewrite bind_assoc. apply bind_ext. intros d3 E3.
  assert (S3 : d_set d3 = d_set d1).
  { rewrite <- S2. eapply (for_each_inv (fun x => d_set x = d_set d2)) in E3; auto. intros k x x' Hx E.
    apply gen_ks in E. unfold ks in E. congruence. }
  rewrite bind_assoc. rewrite props_quiet by (destruct H as [H|H]; [auto|right; rewrite S3; eauto]).
  apply bind_ext. intros d4 _. rewrite bind_assoc. apply bind_ext. intros d5 _. rewrite bind_assoc. reflexivity.
Qed.

(** ** When they are not *)
Lemma recompute_loud (d d' d1 : dyn) nc :
  lv_tslot lv <= 6 -> recompute_evolution d = Ok d' -> get_num_ctrls d = Ok (d1, nc) -> exact_cached (d_set d1) = true ->
  0 < n_ts d -> 0 < nc -> recompute_v unit lv d = Raise AttributeError.
Proof.
  intros L H E1 X Hn Hc. unfold recompute_v, recompute_evolution in *. rewrite E1 in *. cbn [bind] in *.
  set (d2 := match d_stats _ with Some st => _ | None => _ end) in *.
  assert (S2 : d_set d2 = d_set d1) by (unfold d2; cbn; destruct (d_stats d1); reflexivity).
  apply bind_inv in H. destruct H as (d3 & E3 & H). rewrite E3. cbn [bind].
  assert (S3 : d_set d3 = d_set d1).
  { rewrite <- S2. clear H. eapply (for_each_inv (fun x => d_set x = d_set d2)) in E3; auto. intros k x x' Hx E.
    apply gen_ks in E. unfold ks in E. congruence. }
  apply bind_inv in H. destruct H as (d4 & E4 & _).
  destruct (n_ts d) as [|n]; [lia|]. cbn [range seq for_each] in *. unfold range in *; cbn [seq for_each] in *.
  apply bind_inv in E4. destruct E4 as (d5 & E5 & _).
  assert (R : step_prop_v lv nc 0 d3 = Raise AttributeError); [|rewrite R; reflexivity].
  unfold step_prop_v. unfold step_prop in E5. rewrite S3 in *.
  assert (G : grad_exact (s_prop (d_set d1)) && s_cache_pg (d_set d1) = true).
  { unfold exact_cached in X. destruct (s_prop (d_set d1)); cbn; congruence. }
  rewrite G in *. destruct nc as [|nc]; [lia|]. unfold range in *; cbn [seq for_each] in *.
  apply bind_inv in E5. destruct E5 as (d6 & E6 & _).
  apply bind_inv in E6. destruct E6 as ([d7 [p g]] & E7 & E6). rewrite E7. cbn [bind Nat.eqb] in *.
  apply bind_inv in E6. destruct E6 as (d8 & E8 & E6). rewrite E8. cbn [bind]. rewrite E6. cbn [bind andb].
  unfold DEBUG_INTENSE. destruct (Nat.leb_spec (lv_tslot lv) 6); [reflexivity|lia].
Qed.

End Verbose.

(** ** From the evolution to the calls *)
Section Calls.
Context {A : Alg} (unit : Op A -> bool) (lv : levels).
Notation dyn := (dyn A).

Lemma current_evo (d : dyn) : d_evo_cur d = true -> evolution_v unit lv d = compute_evolution d.
Proof. intros E. unfold evolution_v, compute_evolution. now rewrite E. Qed.
Lemma prenorm_agree (d : dyn) : evolution_v unit lv d = compute_evolution d -> prenorm_v unit lv d = get_fidelity_prenorm d.
Proof. intros E. unfold prenorm_v, get_fidelity_prenorm. now rewrite E. Qed.
Lemma fidelity_agree (d : dyn) : evolution_v unit lv d = compute_evolution d -> fidelity_v unit lv d = get_fidelity d.
Proof. intros E. unfold fidelity_v, get_fidelity. now rewrite (prenorm_agree d E). Qed.
Lemma fid_err_agree (d : dyn) : evolution_v unit lv d = compute_evolution d -> fid_err_v unit lv d = get_fid_err d.
Proof. intros E. unfold fid_err_v, get_fid_err. now rewrite (fidelity_agree d E), E. Qed.

Lemma prenorm_evo (d d' : dyn) f : d_evo_cur d = true -> get_fidelity_prenorm d = Ok (d', f) -> d_evo_cur d' = true.
Proof.
  intros E H. unfold get_fidelity_prenorm, compute_evolution in H. rewrite E in H. inv_ok; auto.
  unfold bump_fid; cbn. destruct (d_stats _); auto.
Qed.
Lemma fidelity_evo (d d' : dyn) f : d_evo_cur d = true -> get_fidelity d = Ok (d', f) -> d_evo_cur d' = true.
Proof.
  intros E H. unfold get_fidelity in H. inv_ok; auto.
  match goal with H : get_fidelity_prenorm _ = _ |- _ => apply prenorm_evo in H; auto end.
Qed.
Lemma unit_keeps k j (d d' : dyn) x : unit_grad_entry k j d = Ok (d', x) -> keeps d d'.
Proof. intros E. unfold unit_grad_entry in E; inv_ok; eapply get_pg_keeps; eauto. Qed.
Lemma trace_keeps n k j (d d' : dyn) x : trace_grad_entry n k j d = Ok (d', x) -> keeps d d'.
Proof. intros E. unfold trace_grad_entry in E; inv_ok; eapply get_pg_keeps; eauto. Qed.

Lemma gradient_agree (d : dyn) :
  (forall d1 nc, get_num_ctrls d = Ok (d1, nc) -> evolution_v unit lv d1 = compute_evolution d1) ->
  gradient_v unit lv d = get_fid_err_gradient d.
Proof.
  intros H. unfold gradient_v, get_fid_err_gradient. destruct (f_grad_cur (d_fidst d)); [reflexivity|]. f_equal.
  assert (G1 : fid_grad_v unit lv d = compute_fid_grad d).
  { unfold fid_grad_v, compute_fid_grad. apply bind_ext. intros [d1 nc] E. now rewrite (H d1 nc E). }
  assert (G2 : err_grad_v unit lv d = compute_fid_err_grad d).
  { unfold err_grad_v, compute_fid_err_grad. apply bind_ext. intros [d1 nc] E. now rewrite (H d1 nc E). }
  destruct (s_fid (d_set d)); [|exact G2]. rewrite G1. apply bind_ext. intros [d1 gp] E1.
  assert (C1 : d_evo_cur d1 = true).
  { unfold compute_fid_grad in E1. apply bind_inv in E1. destruct E1 as ([d2 nc] & E2 & E1).
    apply bind_inv in E1. destruct E1 as ([d3 b] & E3 & E1). apply evo_keeps in E3. destruct E3 as (_ & E3 & _).
    apply fill_keeps in E1; [|intros; eapply unit_keeps; eauto]. unfold keeps in E1. intuition congruence. }
  rewrite (fidelity_agree d1 (current_evo d1 C1)). apply bind_ext. intros [d2 f] E2.
  now rewrite (prenorm_agree d2 (current_evo d2 (fidelity_evo d1 d2 f C1 E2))).
Qed.

Lemma step_agree o (d : dyn) : evolution_v unit lv d = compute_evolution d ->
  (forall d1 nc, get_num_ctrls d = Ok (d1, nc) -> evolution_v unit lv d1 = compute_evolution d1) ->
  step_v unit lv o d = step o d.
Proof.
  intros E G. destruct o; cbn [step_v step]; auto; unfold lift; try now rewrite E.
  - now rewrite (fid_err_agree d E).
  - now rewrite (fidelity_agree d E).
  - now rewrite (gradient_agree d G).
Qed.

(** Quiet levels: nothing changes at all. *)
Lemma evolution_quiet (d : dyn) : 6 < lv_tslot lv -> 10 < lv_dyn lv -> lv_check lv = 0 ->
  evolution_v unit lv d = compute_evolution d.
Proof.
  intros H1 H2 H3. unfold evolution_v, compute_evolution. destruct (d_evo_cur d); auto.
  rewrite recompute_quiet by auto. rewrite bind_assoc. apply bind_ext. intros d' _.
  unfold after_v, check_level. rewrite H3. unfold DEBUG.
  destruct (s_class (d_set d')); [reflexivity|]. destruct (Nat.leb_spec (lv_dyn lv) 10); [lia|reflexivity].
Qed.
Lemma run_quiet ops : 6 < lv_tslot lv -> 10 < lv_dyn lv -> lv_check lv = 0 -> forall d : dyn, run_v unit lv ops d = run ops d.
Proof.
  intros H1 H2 H3. induction ops as [|o ops IH]; intros d; cbn; auto.
  rewrite step_agree by auto using evolution_quiet. apply bind_ext; auto.
Qed.

(** If the evolution fails, so do the calls that need it. *)
Lemma step_fails o (d : dyn) e nc : evolution_v unit lv d = Raise e -> get_num_ctrls d = Ok (d, nc) ->
  f_fid_cur (d_fidst d) = false -> f_pre_cur (d_fidst d) = false -> f_grad_cur (d_fidst d) = false ->
  needs_evolution o = true -> (o = GetFidelity -> s_fid (d_set d) = FUnit) ->
  step_v unit lv o d = Raise e.
Proof.
  intros E Hn F1 F2 F3 Ho Hf.
  assert (P : prenorm_v unit lv d = Raise e) by (unfold prenorm_v; rewrite F2, E; reflexivity).
  destruct o; try discriminate; cbn [step_v]; unfold lift.
  - now rewrite E.
  - unfold fid_err_v, fidelity_v. rewrite F1. destruct (s_fid (d_set d)); [now rewrite P|now rewrite E].
  - unfold fidelity_v. rewrite F1, (Hf eq_refl), P. reflexivity.
  - unfold gradient_v, fid_grad_v, err_grad_v. rewrite F3, Hn. cbn [bind]. rewrite E. destruct (s_fid (d_set d)); reflexivity.
Qed.

End Calls.

(** ** Well-posed problems *)
Section Posed.
Context {A : Alg} (s : settings A) (n m : nat) (unit : Op A -> bool) (lv : levels).
Hypothesis W : well_posed s n m.
Hypothesis RO : routines_ok s n m.
Notation dyn := (dyn A).
Notation Good := (Good s n m).

Lemma good_num a (d : dyn) : Good a d -> get_num_ctrls d = Ok (d, m) /\ d_set d = settled s /\ n_ts d = n.
Proof.
  intros (dr & c & Hdr & Hdrf & Hc & Hcf & I).
  destruct W as [Htau Hpos _ _ Hm Hdiagc]. destruct RO as (Hfr & Haug & Hdiag). splits.
  - apply (num_ctrls_ok s n m dr c Htau Hpos Hdr Hdrf Hc Hcf Hm Hdiagc Hfr Haug Hdiag a (inv_shape _ _ _ _ _ _ _ I) d (inv_st _ _ _ _ _ _ _ I)).
  - apply (st_set _ _ _ _ _ _ (inv_st _ _ _ _ _ _ _ I)).
  - apply (n_ts_eq s n m dr c Htau). apply I.
Qed.

Lemma settled_exact : exact_cached (settled s) = exact_cached s.
Proof. unfold exact_cached. now rewrite settled_prop, settled_cache_pg. Qed.

(** What the check says of an up-to-date object. *)
Definition verdict (a : amps) : option exn :=
  match s_class s with
  | GenMat => if lv_check lv =? 0 then None else Some AttributeError
  | Unitary =>
    let level := if lv_dyn lv <=? 10 then 1 else lv_check lv in
    if level =? 0 then None
    else match s_prop s with
         | Diag => None
         | _ => if (1 <? level) || negb (forallb unit (props_of s a)) then Some TypeError else None
         end
  end.

Lemma check_slots level a (d : dyn) : d_set d = settled s -> length (props_of s a) = n -> length (gens_of s a) = n ->
  (forall k p, nth_error (props_of s a) k = Some p -> getf (d_prop d) k = Ok p) ->
  (forall k, k < n -> exists g, getf (d_dg d) k = Ok g) ->
  (s_prop s = Diag -> forall k, k < n -> (exists x, getf (d_peig d) k = Ok x) /\ (exists x, getf (d_evec d) k = Ok x) /\
     (forall l, d_eadj d = Some l -> exists x, getf l k = Ok x)) ->
  for_each (range n) (check_slot unit level) d =
  match s_prop s with
  | Diag => Ok d
  | _ => if (if 0 <? n then 1 <? level else false) || negb (forallb unit (props_of s a)) then Raise TypeError else Ok d
  end.
Proof.
  intros Es Lp Lg Hp Hg Hd. unfold range.
  assert (G : forall l i, i + length l = n -> (forall k p, nth_error l k = Some p -> getf (d_prop d) (i + k) = Ok p) ->
    for_each (seq i (length l)) (check_slot unit level) d =
    match s_prop s with
    | Diag => Ok d
    | _ => if (if 0 <? length l then 1 <? level else false) || negb (forallb unit l) then Raise TypeError else Ok d
    end).
  { induction l as [|p l IH]; intros i Hi Hl; cbn [length seq for_each].
    - destruct (s_prop s); reflexivity.
    - assert (E : check_slot unit level i d =
        match s_prop s with Diag => Ok d | _ => if negb (unit p) || (1 <? level) then Raise TypeError else Ok d end).
      { unfold check_slot. rewrite <- (Nat.add_0_r i) at 1. rewrite (Hl 0 p eq_refl). cbn [bind]. rewrite Es, settled_prop.
        cbn [length] in Hi. destruct (Hg i ltac:(lia)) as (g & Eg). rewrite Eg. cbn [bind].
        destruct (s_prop s) eqn:Ek; try (destruct (negb (unit p) || (1 <? level)); reflexivity).
        destruct (Hd eq_refl i ltac:(lia)) as ((x & ->) & (y & ->) & Ha). cbn [bind].
        destruct (d_eadj d) as [la|]; [destruct (Ha la eq_refl) as (z & ->)|]; destruct (negb (unit p) || _); reflexivity. }
      assert (IH' : for_each (seq (S i) (length l)) (check_slot unit level) d =
        match s_prop s with
        | Diag => Ok d
        | _ => if (if 0 <? length l then 1 <? level else false) || negb (forallb unit l) then Raise TypeError else Ok d
        end).
      { apply IH; [cbn [length] in Hi; lia|]. intros k q Hk. rewrite Nat.add_succ_comm. apply (Hl (S k)). auto. }
      rewrite E. clear IH. change (0 <? S (length l)) with true. cbv iota.
      destruct (s_prop s); try exact IH';
      cbn [forallb]; destruct (unit p), (1 <? level) eqn:E1; cbn [negb orb andb bind]; auto;
      rewrite IH'; destruct (0 <? length l); reflexivity. }
  rewrite <- Lp. rewrite (G (props_of s a) 0); auto.
Qed.

Lemma good_after a (d d' : dyn) : Good a d -> recompute_evolution d = Ok d' ->
  after_v unit lv d' = match verdict a with Some e => Raise e | None => Ok d' end.
Proof.
  intros G E. destruct (good_lens s n m W RO a d G) as [Lp Lg]. destruct G as (dr & c & Hdr & Hdrf & Hc & Hcf & I).
  destruct W as [Htau Hpos _ _ Hm Hdiagc]. destruct RO as (Hfr & Haug & Hdiag).
  destruct (recompute_ok s n m dr c Htau Hpos Hdr Hdrf Hc Hcf Hm Hdiagc Hfr Haug Hdiag a
              (inv_shape _ _ _ _ _ _ _ I) d (inv_st _ _ _ _ _ _ _ I) (inv_amps _ _ _ _ _ _ _ I))
    as (d1 & E1 & St & Cu & _). rewrite E in E1. injection E1 as <-.
  pose proof (st_set _ _ _ _ _ _ St) as Es. pose proof (inv_shape _ _ _ _ _ _ _ I) as Ha.
  unfold after_v, verdict, check_level. rewrite Es, settled_class. unfold DEBUG.
  case_eq (s_class s); intros Ecl; [destruct (lv_check lv =? 0); reflexivity|].
  set (level := if lv_dyn lv <=? 10 then 1 else lv_check lv). destruct (level =? 0); [reflexivity|].
  rewrite (n_ts_eq s n m dr c Htau d' St).
  rewrite (check_slots level a d'); auto.
  - destruct (Nat.ltb_spec 0 n); [|lia]. destruct (s_prop s); try reflexivity; destruct (_ || _); reflexivity.
  - intros k p Hk. assert (k < n).
    { rewrite <- Lp. apply nth_error_Some. congruence. }
    eapply prop_at; eauto. now apply (cur_prop _ _ _ _ _ _ Cu).
  - intros k Hk. destruct (slot s n m dr c Htau Hpos Hdr Hdrf Hc Hcf Hm Hdiagc Hfr Haug Hdiag a Ha k Hk) as (? & ? & ? & t & g & _ & _ & _ & _ & _ & _ & _ & Eg & _).
    exists g. apply getf_ok. apply (cur_gen _ _ _ _ _ _ Cu k Hk g Eg).
  - intros HD k Hk. destruct (slot s n m dr c Htau Hpos Hdr Hdrf Hc Hcf Hm Hdiagc Hfr Haug Hdiag a Ha k Hk) as (? & ? & ? & t & g & _ & _ & _ & Et & _ & _ & _ & Eg & _).
    pose proof (cur_dec _ _ _ _ _ _ Cu HD k Hk t g Et Eg) as Q. destruct (oeigh A g) as [lam V].
    destruct Q as (_ & Q1 & Q2 & _ & Q3). splits; eauto using getf_ok.
Qed.

(** The evolution of an object that is in order. *)
Lemma good_evolution a (d : dyn) : Good a d ->
  evolution_v unit lv d =
  if d_evo_cur d then compute_evolution d
  else match complaint unit lv s a with Some e => Raise e | None => compute_evolution d end.
Proof.
  intros G. destruct (d_evo_cur d) eqn:Ec; [now apply current_evo|].
  destruct (good_num a d G) as (Hn & Hs & Ht).
  destruct (good_evo s n m W RO a d G) as (d1 & b & E & _). unfold compute_evolution in E. rewrite Ec in E.
  apply bind_inv in E. destruct E as (d2 & E & _).
  unfold evolution_v, compute_evolution. rewrite Ec.
  assert (V : complaint unit lv s a = if (lv_tslot lv <=? 6) && exact_cached s then Some AttributeError else verdict a) by reflexivity.
  rewrite V. destruct (Nat.leb_spec (lv_tslot lv) 6) as [L|L].
  - destruct (exact_cached s) eqn:X; cbn [andb].
    + rewrite (recompute_loud unit lv d d2 d m L E Hn); [reflexivity| | |].
      * now rewrite Hs, settled_exact.
      * rewrite Ht. apply W.
      * apply W. unfold exact_cached in X. destruct (s_prop s); congruence.
    + rewrite recompute_quiet by (right; intros d3 nc; rewrite Hn; intros [= <- <-]; now rewrite Hs, settled_exact).
      rewrite E. cbn [bind]. rewrite (good_after a d d2 G E). destruct (verdict a); reflexivity.
  - cbn [andb]. rewrite recompute_quiet by auto.
    rewrite E. cbn [bind]. rewrite (good_after a d d2 G E). destruct (verdict a); reflexivity.
Qed.

(** No flag is set while the evolution is out of date. *)
Definition tied (d : dyn) : Prop := linked d /\ (f_grad_cur (d_fidst d) = true -> d_evo_cur d = true).

Lemma good_step_v a (d : dyn) o : Good a d -> tied d -> call_ok s n m o ->
  step_v unit lv o d =
  if needs_evolution o && negb (d_evo_cur d)
  then match complaint unit lv s a with Some e => Raise e | None => step o d end
  else step o d.
Proof.
  intros G [(Li & L1 & L2) L3] Ho. pose proof (good_evolution a d G) as E. destruct (good_num a d G) as (Hn & Hs & _).
  assert (Ag : evolution_v unit lv d = compute_evolution d -> step_v unit lv o d = step o d).
  { intros Q. apply step_agree; auto. intros d1 nc. rewrite Hn. now intros [= <- <-]. }
  destruct (needs_evolution o) eqn:No; cbn [andb]; [|destruct o; try discriminate No; reflexivity].
  destruct (d_evo_cur d) eqn:Ec; cbn [negb]; [auto|].
  destruct (complaint unit lv s a) as [e|]; [|auto].
  apply (step_fails unit lv o d e m); auto.
  - destruct (f_fid_cur (d_fidst d)); auto. now rewrite L1.
  - destruct (f_pre_cur (d_fidst d)); auto. now rewrite L2.
  - destruct (f_grad_cur (d_fidst d)); auto. now rewrite L3.
  - intros ->. now rewrite Hs, settled_fid.
Qed.

Lemma gradient_evo (d d' : dyn) g : tied d -> get_fid_err_gradient d = Ok (d', g) -> d_evo_cur d' = true.
Proof.
  unfold get_fid_err_gradient; intros (L & T) H.
  destruct (f_grad_cur (d_fidst d)) eqn:Eg; [inv_ok; auto|].
  apply bind_inv in H; destruct H as ((d1 & g1) & E & H).
  assert (C1 : d_evo_cur d1 = true).
  { destruct (s_fid (d_set d)).
    - unfold compute_fid_grad in E. apply bind_inv in E. destruct E as ([d2 gp] & E2 & E).
      apply bind_inv in E2. destruct E2 as ([d3 nc] & E3 & E2). apply bind_inv in E2. destruct E2 as ([d4 b] & E4 & E2).
      apply evo_keeps in E4. destruct E4 as (_ & E4 & _).
      apply fill_keeps in E2; [|intros; eapply unit_keeps; eauto].
      assert (C2 : d_evo_cur d2 = true) by (unfold keeps in E2; intuition congruence).
      apply bind_inv in E. destruct E as ([d5 f] & E5 & E). apply (fidelity_evo _ _ _ C2) in E5.
      apply bind_inv in E. destruct E as ([d6 f'] & E6 & E). apply (prenorm_evo _ _ _ E5) in E6.
      injection E as <- _. auto.
    - unfold compute_fid_err_grad in E. apply bind_inv in E. destruct E as ([d3 nc] & E3 & E2).
      apply bind_inv in E2. destruct E2 as ([d4 b] & E4 & E2). apply evo_keeps in E4. destruct E4 as (_ & E4 & _).
      apply fill_keeps in E2; [|intros; eapply trace_keeps; eauto]. unfold keeps in E2; intuition congruence. }
  injection H as <- _. unfold bump_grad; cbn. destruct (d_stats d1); auto.
Qed.

Lemma tied_step a (d d' : dyn) o : Good a d -> tied d -> call_ok s n m o -> step o d = Ok d' ->
  tied d' /\ Good (latest a [o]) d' /\
  d_evo_cur d' = match o with
                 | UpdateAmps b => if list_eq_dec (list_eq_dec Req_EM_T) a b then d_evo_cur d else false
                 | _ => needs_evolution o || d_evo_cur d
                 end.
Proof.
  intros G T Ho E.
  assert (G' : Good (latest a [o]) d').
  { destruct G as (dr & c & Hdr & Hdrf & Hc & Hcf & I). destruct W as [Htau Hpos _ _ Hm Hdiagc]. destruct RO as (Hfr & Haug & Hdiag).
    destruct (step_ok s n m dr c Htau Hpos Hdr Hdrf Hc Hcf Hm Hdiagc Hfr Haug Hdiag a d o Ho I) as (d1 & E1 & I1 & _).
    rewrite E in E1. injection E1 as <-. exists dr, c. splits; auto. }
  assert (C : forall d1, d_fidst d1 = d_fidst d -> d_evo_cur d1 = d_evo_cur d -> d_init d1 = d_init d -> tied d1).
  { intros d1 Q1 Q2 Q3. unfold tied, linked in *. now rewrite Q1, Q2, Q3. }
  assert (Y : linked d' -> d_evo_cur d' = true -> tied d') by (intros; split; auto).
  pose proof T as [L T2].
  destruct o as [b| | | | | | | | | | ]; cbn [step] in E; cbn [needs_evolution orb]; unfold lift in E.
  - assert (L' : linked d') by (eapply update_linked; eauto).
    destruct G as (dr & c & Hdr & Hdrf & Hc & Hcf & I).
    destruct (update_ok s n m dr c a b d Ho I) as (d1 & E1 & _ & H1 & H2 & _). rewrite E in E1. injection E1 as <-.
    destruct (list_eq_dec (list_eq_dec Req_EM_T) a b) as [Q|Q].
    + destruct (H1 Q) as [K1 K2]. splits; auto. split; auto. rewrite K1, K2. auto.
    + destruct (H2 Q) as (K1 & K2 & K3). splits; auto. split; auto. rewrite K3. discriminate.
  - apply bind_inv in E. destruct E as ([d1 b] & E & [= <-]). destruct (evo_linked _ _ _ L E). splits; auto.
  - apply bind_inv in E. destruct E as ([d1 b] & E & [= <-]). destruct (fid_err_linked _ _ _ L E). splits; auto.
  - apply bind_inv in E. destruct E as ([d1 b] & E & [= <-]). destruct (fidelity_linked _ _ _ L E). splits; auto.
  - apply bind_inv in E. destruct E as ([d1 b] & E & [= <-]). pose proof (gradient_linked _ _ _ L E).
    pose proof (gradient_evo _ _ _ T E). splits; auto.
  - injection E as <-. splits; auto; [apply C|]; unfold get_dyn_gen; destruct (d_dg_q d); auto.
  - injection E as <-. splits; auto; [apply C|]; unfold get_prop; destruct (d_prop_q d); auto.
  - injection E as <-. splits; auto; [apply C|]; unfold get_prop_grads; destruct (d_pg d), (d_pg_q d); auto.
  - injection E as <-. splits; auto; [apply C|]; unfold get_fwd_evo; destruct (d_fwd_q d); auto.
  - injection E as <-. splits; auto; [apply C|]; unfold get_onwd_evo; destruct (d_onwd d), (d_onwd_q d); auto.
  - injection E as <-. splits; auto; [apply C|]; unfold get_onto_evo; destruct (d_onto d), (d_onto_q d); auto.
Qed.

Lemma run_complaint ops : forall a (d : dyn), Good a d -> tied d -> Forall (call_ok s n m) ops ->
  run_v unit lv ops d =
  match first_complaint unit lv s (d_evo_cur d) a ops with Some e => Raise e | None => run ops d end.
Proof.
  induction ops as [|o ops IH]; intros a d G T F; [reflexivity|].
  inversion F as [|? ? Ho F']; subst. cbn [run_v run]. rewrite (good_step_v a d o G T Ho).
  assert (St : exists d', step o d = Ok d').
  { destruct G as (dr & c & Hdr & Hdrf & Hc & Hcf & I). destruct W as [Htau Hpos _ _ Hm Hdiagc]. destruct RO as (Hfr & Haug & Hdiag).
    destruct (step_ok s n m dr c Htau Hpos Hdr Hdrf Hc Hcf Hm Hdiagc Hfr Haug Hdiag a d o Ho I) as (d1 & E1 & _). eauto. }
  destruct St as (d' & E). rewrite E. cbn [bind].
  destruct (tied_step a d d' o G T Ho E) as (T' & G' & C').
  specialize (IH _ _ G' T' F'). rewrite C' in IH.
  destruct o as [b| | | | | | | | | | ]; cbn [latest needs_evolution andb orb first_complaint] in *;
  try exact IH;
  destruct (d_evo_cur d); cbn [negb] in *; try exact IH;
  destruct (complaint unit lv s a); cbn [bind]; auto.
Qed.

Lemma init_grad a (d d' : dyn) : initialize_controls a d = Ok d' -> f_grad_cur (d_fidst d') = false.
Proof.
  unfold initialize_controls; intros H.
  apply bind_inv in H; destruct H as (d1 & E & H). apply init_evo_amps in E; cbn in E.
  unfold update_ctrl_amps, compare_amps in H.
  assert (Q : d_amps (fid_init_comp d1) = d_amps d1)
    by (unfold fid_init_comp; destruct (s_fid (d_set d1)); auto; destruct (s_scale (d_set d1)); auto).
  cbn in H. rewrite Q, E in H. cbn in H. injection H as <-.
  destruct (d_stats (fid_init_comp d1)); reflexivity.
Qed.

Lemma session_complaint st a ops : shape n m a -> Forall (call_ok s n m) ops ->
  session_v unit lv s st a ops =
  match first_complaint unit lv s false a ops with Some e => Raise e | None => session s st a ops end.
Proof.
  intros Sa F. unfold session_v, session.
  pose proof W as [Htau Hpos (dr & Hdr & Hdrf) (c & Hc & Hcf) Hm Hdiagc]. pose proof RO as (Hfr & Haug & Hdiag).
  destruct (init_ok s n m dr c Htau Hpos Hdr Hdrf Hc Hcf Hm Hdiagc Hfr Haug Hdiag a (new_dyn s st) eq_refl Sa (new_reinit s n m c st))
    as (d & E & I & Ec & _). rewrite E. cbn [bind].
  rewrite (run_complaint ops a d); auto.
  - rewrite Ec. reflexivity.
  - exists dr, c. splits; auto.
  - split; [eapply initialize_linked; eauto|]. rewrite (init_grad a _ _ E). discriminate.
Qed.



End Posed.

(** ** The message of optimize_pulse *)
Section Message.
Context {A : Alg} (s : settings A) (n m : nat).
Hypothesis W : well_posed s n m.
Hypothesis RO : routines_ok s n m.

Lemma collect {X Y} (f : nat -> Res Y) (l : list X) (g : X -> Y) :
  (forall j x, nth_error l j = Some x -> f j = Ok (g x)) ->
  forall q i acc, i + q <= length l ->
  for_each (seq i q) (fun j acc => x <- f j;; Ok (acc ++ [x])) acc = Ok (acc ++ map g (firstn q (skipn i l))).
Proof.
  intros H. induction q as [|q IH]; intros i acc Hi; cbn [seq for_each].
  - now rewrite app_nil_r.
  - destruct (nth_error l i) as [x|] eqn:E; [|apply nth_error_None in E; lia].
    rewrite (H i x E). cbn [bind]. rewrite IH by lia. rewrite <- app_assoc. f_equal. f_equal.
    assert (S : skipn i l = x :: skipn (S i) l).
    { clear - E. revert l E. induction i; intros [|y l] E; cbn in *; try discriminate; auto; congruence. }
    rewrite S. reflexivity.
Qed.
Lemma collect_raise {X Y} (f : nat -> Res Y) (l : list X) (g : X -> Y) :
  (forall j x, nth_error l j = Some x -> f j = Ok (g x)) -> f (length l) = Raise IndexError ->
  forall q i acc, i <= length l < i + q ->
  for_each (seq i q) (fun j acc => x <- f j;; Ok (acc ++ [x])) acc = Raise IndexError.
Proof.
  intros H He. induction q as [|q IH]; intros i acc Hi; [lia|]. cbn [seq for_each].
  destruct (Nat.eq_dec i (length l)) as [->|Ne]; [now rewrite He|].
  destruct (nth_error l i) as [x|] eqn:E; [|apply nth_error_None in E; lia].
  rewrite (H i x E). cbn [bind]. apply IH. lia.
Qed.
End Message.
