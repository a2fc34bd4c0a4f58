(** Invariants of the Dynamics model: what initialisation establishes and what
    a recomputation computes. *)
From Coq Require Import Reals Lra FunctionalExtensionality.
From Coquelicot Require Import Complex.
From RecordUpdate Require Import RecordUpdate.
From Verif.Model Require Import Base Dyn.
From Verif.Lib Require Import Lists.
From Verif.Spec Require Import Evolution.
Local Open Scope R_scope.

(** ** Facts about the specification *)
Section SpecFacts.
Context {A : Alg}.

Lemma apply_phase_spec (s : settings A) g :
  s_phase s <> None -> apply_phase s g = with_phase s g.
Proof.
  unfold apply_phase, with_phase. destruct (s_phase s) as [[]|], (s_phapp s); congruence.
Qed.

Lemma onto_target_spec (s : settings A) : onto_evo_target s = undo_target s.
Proof. unfold onto_evo_target, undo_target. destruct (s_class s), (osquare A (s_target s)); reflexivity. Qed.

Lemma eig_val_tau_eq lam t i : eig_val_tau lam t i = (0, - (lam i * t)).
Proof.
  unfold eig_val_tau, Copp, Ci, RtoC, Cmult; cbn.
  f_equal; ring.
Qed.

Lemma prop_eig_spec lam t : prop_eig lam t = eigphase lam t.
Proof.
  apply functional_extensionality; intros i.
  unfold prop_eig, cexp, eigphase. rewrite eig_val_tau_eq; cbn [Re Im fst snd].
  unfold Re, Im; cbn [fst snd]. rewrite exp_0, cos_neg, sin_neg, !Rmult_1_l. reflexivity.
Qed.

Lemma Cmod_im y : Cmod (0, y) = Rabs y.
Proof.
  unfold Cmod; cbn [fst snd]. replace (0 ^ 2 + y ^ 2) with (y * y) by ring.
  fold (Rsqr y). apply sqrt_Rsqr_abs.
Qed.

Lemma factors_spec prec lam t : factors prec lam t = divdiff prec lam t.
Proof.
  apply functional_extensionality; intros i; apply functional_extensionality; intros j.
  unfold factors, divdiff, ltR. rewrite !prop_eig_spec, !eig_val_tau_eq.
  replace (Cminus (0, - (lam j * t)) (0, - (lam i * t)))
    with ((0, - (lam j * t - lam i * t)) : C)
    by (unfold Cminus, Cplus, Copp; cbn; f_equal; ring).
  rewrite Cmod_im, Rabs_Ropp. destruct Rlt_dec; reflexivity.
Qed.

Lemma unphase_spec z : unphase z = conj_phase z.
Proof. reflexivity. Qed.

Lemma lincomb_nil d (cs : list (Op A)) : lincomb d [] cs = d.
Proof. destruct cs; reflexivity. Qed.

Lemma map2_length {X Y W} (f : X -> Y -> W) l1 l2 :
  length l1 = length l2 -> length (map2 f l1 l2) = length l1.
Proof. revert l2; induction l1; intros [|y l2]; cbn; intros; try discriminate; auto. Qed.

Lemma map2_nth {X Y W} (f : X -> Y -> W) l1 l2 k x y :
  nth_error l1 k = Some x -> nth_error l2 k = Some y -> nth_error (map2 f l1 l2) k = Some (f x y).
Proof.
  revert l2 k; induction l1; intros [|y' l2] [|k]; cbn; intros; try discriminate; try congruence; auto.
Qed.

Lemma map3_length {X Y Z W} (f : X -> Y -> Z -> W) l1 l2 l3 :
  length l1 = length l2 -> length l1 = length l3 -> length (map3 f l1 l2 l3) = length l1.
Proof.
  revert l2 l3; induction l1; intros [|y l2] [|z l3]; cbn; intros; try discriminate; auto.
Qed.

Lemma map3_nth {X Y Z W} (f : X -> Y -> Z -> W) l1 l2 l3 k x y z :
  nth_error l1 k = Some x -> nth_error l2 k = Some y -> nth_error l3 k = Some z ->
  nth_error (map3 f l1 l2 l3) k = Some (f x y z).
Proof.
  revert l2 l3 k; induction l1; intros [|y' l2] [|z' l3] [|k]; cbn; intros;
    try discriminate; try congruence; auto.
Qed.

Lemma evolve_snoc (ps : list (Op A)) p x : evolve (ps ++ [p]) x = omul A p (evolve ps x).
Proof. unfold evolve; rewrite fold_left_app; reflexivity. Qed.

Lemma devolve_cons p (ps : list (Op A)) x : devolve x (p :: ps) = omul A (devolve x ps) p.
Proof. reflexivity. Qed.

Lemma product_cons (p : Op A) ps q :
  product ps = Some q -> product (p :: ps) = Some (omul A q p).
Proof. destruct ps; cbn; [discriminate|]. intros ->; reflexivity. Qed.

End SpecFacts.

(** ** Settings after initialisation *)
Section Settled.
Context {A : Alg}.

Definition settle_map (s : settings A) : settings A :=
  match s_class s with
  | GenMat => s
  | Unitary =>
    let s1 := match s_drift s with
              | None => s <| s_drift := s_drift_ham s |>
              | Some x => s <| s_drift_ham := Some x |>
              end in
    match s_ctrls s1 with
    | None => s1 <| s_ctrls := s_ctrl_ham s1 |>
    | Some x => s1 <| s_ctrl_ham := Some x |>
    end
  end.
Definition settle_phase (s : settings A) : settings A :=
  match s_phase s with None => s <| s_cache_ph := false |> | Some _ => s end.
Definition settle_scale (s : settings A) : settings A :=
  match s_fid s, s_scale s with
  | FTrace, None => s <| s_scale := Some (1 / (2 * INR (s_dim s))) |>
  | _, _ => s
  end.
Definition settled (s : settings A) : settings A := settle_scale (settle_phase (settle_map s)).

Ltac settle_tac s :=
  unfold settled, settle_scale, settle_phase, settle_map;
  destruct s as [[] [?|] [?|] ? ? ? ? ? [?|] ? ? ? ? ? ? ? [] ? [?|] ?]; reflexivity.

Lemma settled_drift (s : settings A) : s_drift (settled s) = eff_drift s.
Proof. settle_tac s. Qed.
Lemma settled_ctrls (s : settings A) : s_ctrls (settled s) = eff_ctrls s.
Proof. settle_tac s. Qed.
Lemma settled_tau (s : settings A) : s_tau (settled s) = s_tau s.
Proof. settle_tac s. Qed.
Lemma settled_class (s : settings A) : s_class (settled s) = s_class s.
Proof. settle_tac s. Qed.
Lemma settled_prop (s : settings A) : s_prop (settled s) = s_prop s.
Proof. settle_tac s. Qed.
Lemma settled_fid (s : settings A) : s_fid (settled s) = s_fid s.
Proof. settle_tac s. Qed.
Lemma settled_phase (s : settings A) : s_phase (settled s) = s_phase s.
Proof. settle_tac s. Qed.
Lemma settled_phapp (s : settings A) : s_phapp (settled s) = s_phapp s.
Proof. settle_tac s. Qed.
Lemma settled_initial (s : settings A) : s_initial (settled s) = s_initial s.
Proof. settle_tac s. Qed.
Lemma settled_target (s : settings A) : s_target (settled s) = s_target s.
Proof. settle_tac s. Qed.
Lemma settled_cache_pg (s : settings A) : s_cache_pg (settled s) = s_cache_pg s.
Proof. settle_tac s. Qed.
Lemma settled_cache_adj (s : settings A) : s_cache_adj (settled s) = s_cache_adj s.
Proof. settle_tac s. Qed.
Lemma settled_prec (s : settings A) : s_prec (settled s) = s_prec s.
Proof. settle_tac s. Qed.
Lemma settled_phopt (s : settings A) : s_phopt (settled s) = s_phopt s.
Proof. settle_tac s. Qed.
Lemma settled_dtype (s : settings A) : s_dtype (settled s) = s_dtype s.
Proof. settle_tac s. Qed.
Lemma settled_scale (s : settings A) : s_fid s = FTrace -> s_scale (settled s) = Some (trace_scale s).
Proof.
  unfold trace_scale, settled, settle_scale, settle_phase, settle_map.
  destruct s as [[] [?|] [?|] ? ? ? ? ? [?|] ? ? ? ? ? ? ? [] ? [?|] ?]; cbn; try discriminate; reflexivity.
Qed.
Lemma settled_cache_ph (s : settings A) :
  s_cache_ph (settled s) = match s_phase s with None => false | Some _ => s_cache_ph s end.
Proof. settle_tac s. Qed.
Lemma settled_with_phase (s : settings A) g : with_phase (settled s) g = with_phase s g.
Proof. unfold with_phase. rewrite settled_phase, settled_phapp; reflexivity. Qed.
Lemma settled_undo (s : settings A) : undo_target (settled s) = undo_target s.
Proof. unfold undo_target. rewrite settled_class, settled_target; reflexivity. Qed.
End Settled.
