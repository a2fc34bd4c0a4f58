(** The adaptive function on the one-level system. *)
From Coq Require Import Reals Lra.
From Coquelicot Require Import Coquelicot.
From Verif.Model Require Import Base Dyn Grape.
From Verif.Lib Require Import Lists Csum Mat MExp MCalc MDiag.
From Verif.Spec Require Import Evolution MatAlg Grapes.
From Verif.Proofs Require Import MatProps QubitFacts GrapeFacts GrapeMat GrapeLevel AdaptFacts.
Local Open Scope nat_scope.
Set Bullet Behavior "Strict Subproofs".

Section Level.
Context (theta : R) (n : nat) (e : R).
Definition adl := level theta n e None None None None true.

Definition flat (a : R) : pulse := [[a; a]].
Lemma adl_slots a : slot_unitaries (A := LAlg) adl 2 (1 - 0)%R (flat a) = Ok [num (cis (- a))].
Proof.
  refine (eq_trans (slots_ok 1 plain_routines level_expm adl (level_args _ _ _ _ _ _ _ _) (1 - 0)%R (flat a) _) _).
  - unfold flat. split; cbn; auto.
  - change (Ok [slot_propagator 1 (num (RtoC 0)) [num (RtoC 1)] (1 - 0) [[a; a]] 0] = Ok [num (cis (- a))]).
    rewrite level_slot. do 5 f_equal. ring.
Qed.
Lemma adl_fb a : fb_lists (A := LAlg) (mid 1) 2 [num (cis (- a))] = Ok ([num (cis (- a))], [num (RtoC 1)]).
Proof.
  cbn. change (Ok ([mmul (num (cis (- a))) (mid 1)], [mid 1]) = Ok ([num (cis (- a))], [num (RtoC 1)])).
  rewrite num_one, num_mul. do 4 f_equal. ring.
Qed.
Lemma adl_final a : final_unitary (A := LAlg) (mid 1) adl 2 (1 - 0)%R (flat a) = Ok (num (cis (- a))).
Proof.
  unfold final_unitary. change (mkArgs _ _ _ _ _ _ _ _ _ _ _ _) with adl. rewrite adl_slots. cbn.
  change (Ok (mmul (num (cis (- a))) (mid 1)) = Ok (num (cis (- a)))). rewrite num_one, num_mul. do 2 f_equal. ring.
Qed.
Lemma adl_score a : score (A := LAlg) 1 adl (num (cis (- a))) = cos (theta - a).
Proof.
  unfold score. change (Re (goverlap (A := LAlg) 1 (num (cis (- a))) (num (cis (- theta)))) = cos (theta - a)).
  unfold goverlap. change (Re (mtr (mmul (mdag (num (cis (- a)))) (num (cis (- theta)))) / RtoC (INR 1))%C = cos (theta - a)).
  rewrite num_dag, num_mul, num_tr, cos_minus. unfold cis. rewrite !cos_neg, !sin_neg.
  unfold Cdiv, Cinv, Cmult, Cconj, RtoC, Re; cbn [fst snd INR]. field.
Qed.
Lemma adl_update e0 e1 e2 best a0 a1 a2 ab : nth_error [a0; a1; a2] best = Some ab ->
  let d := sin (theta - ab) in
  update_ad (A := LAlg) 1 adl 2 1 None (1 - 0)%R [e0; e1; e2] best [num (cis (- ab))] [num (RtoC 1)] [flat a0; flat a1; flat a2]
  = Ok [flat (a0 + e0 * d); flat (a1 + e1 * d); flat (a2 + e2 * d)]%R.
Proof.
  intros Hb d.
  assert (Hd : Re (direction (A := LAlg) 1 true (num (cis (- theta))) (num (RtoC 1)) (1 - 0) (num (cis (- ab))) (num (RtoC 1))) = d).
  { replace (1 - 0)%R with 1%R by ring. rewrite level_direction. reflexivity. }
  unfold update_ad. cbn [range seq for_each Nat.sub]. 
  cbn [get nth_error bind adl level g_H g_alpha g_beta g_ps g_U truthy].
  destruct best as [|[|[|[|]]]]; try discriminate; injection Hb as ->.
  all: cbn [get nth_error get2 set2 bind set length Nat.ltb Nat.leb upd repeat zero_pulse clip]; rewrite Hd; reflexivity.
Qed.
End Level.

Section Witness.
Let e := (2 * (PI / 3 + 2 * PI))%R.
Notation g := (adl (PI / 2) 3 e).
Lemma s2 x : sin (x + 2 * PI) = sin x.
Proof. rewrite sin_plus, sin_2PI, cos_2PI. ring. Qed.
Lemma c2s x : cos (PI / 2 - x) = sin x.
Proof. apply cos_shift. Qed.
Lemma s2c x : sin (PI / 2 - x) = cos x.
Proof. apply sin_shift. Qed.

(** The overlaps of the two iterations. *)
Lemma sn0 : sin (0 + e / 2 * 1) = (sqrt 3 / 2)%R.
Proof. unfold e. replace (0 + 2 * (PI / 3 + 2 * PI) / 2 * 1)%R with (PI / 3 + 2 * PI)%R by field. now rewrite s2, sin_PI3. Qed.
Lemma sn1 : sin (0 + e * 1) = (sqrt 3 / 2)%R.
Proof. unfold e. replace (0 + 2 * (PI / 3 + 2 * PI) * 1)%R with (2 * (PI / 3) + 2 * PI + 2 * PI)%R by field. now rewrite !s2, sin_2PI3. Qed.
Lemma sn2 : sin (0 + 2 * e * 1) = (- (sqrt 3 / 2))%R.
Proof.
  unfold e. replace (0 + 2 * (2 * (PI / 3 + 2 * PI)) * 1)%R with (PI / 3 + PI + 2 * PI + 2 * PI + 2 * PI + 2 * PI)%R by field.
  now rewrite !s2, neg_sin, sin_PI3.
Qed.
Lemma slope1 : sin (PI / 2 - (0 + e / 2 * 1)) = (1 / 2)%R.
Proof.
  rewrite s2c. unfold e. replace (0 + 2 * (PI / 3 + 2 * PI) / 2 * 1)%R with (PI / 3 + 2 * PI)%R by field.
  rewrite cos_plus, cos_2PI, sin_2PI, cos_PI3. field.
Qed.
Lemma sm0 : sin (0 + e / 2 * 1 + e / 2 / 2 * (1 / 2)) = sin (PI / 12).
Proof.
  unfold e. replace (0 + 2 * (PI / 3 + 2 * PI) / 2 * 1 + 2 * (PI / 3 + 2 * PI) / 2 / 2 * (1 / 2))%R with (PI - PI / 12 + 2 * PI)%R by field.
  now rewrite s2, sin_PI_x.
Qed.
Lemma sm1 : sin (0 + e * 1 + e / 2 * (1 / 2)) = (- (1 / 2))%R.
Proof.
  unfold e. replace (0 + 2 * (PI / 3 + 2 * PI) * 1 + 2 * (PI / 3 + 2 * PI) / 2 * (1 / 2))%R with (PI - PI / 6 + PI + 2 * PI + 2 * PI)%R by field.
  now rewrite !s2, neg_sin, sin_PI_x, sin_PI6.
Qed.
Lemma sm2 : sin (0 + 2 * e * 1 + 2 * e / 2 * (1 / 2)) = (- (sqrt 3 / 2))%R.
Proof.
  unfold e. replace (0 + 2 * (2 * (PI / 3 + 2 * PI)) * 1 + 2 * (2 * (PI / 3 + 2 * PI)) / 2 * (1 / 2))%R with (PI - PI / 3 + PI + 2 * PI + 2 * PI + 2 * PI + 2 * PI + 2 * PI)%R by field.
  now rewrite !s2, neg_sin, sin_PI_x, sin_PI3.
Qed.
Lemma order : (0 < sin (PI / 12) < sqrt 3 / 2)%R.
Proof.
  pose proof PI_RGT_0 as HP. split; [apply sin_gt_0; lra|]. rewrite <- sin_PI3. apply sin_increasing_1; lra.
Qed.
Lemma sq3 : (0 < sqrt 3)%R. Proof. apply sqrt_lt_R0. lra. Qed.

Lemma score_sin x : score (A := LAlg) 1 g (num (cis (- x))) = sin x.
Proof. rewrite adl_score. apply c2s. Qed.
Lemma gt x y : (y <= x)%R -> ltR x y = false. Proof. intros. unfold ltR. destruct Rlt_dec; auto; lra. Qed.
Lemma lt x y : (x < y)%R -> ltR x y = true. Proof. intros. unfold ltR. destruct Rlt_dec; auto; lra. Qed.

Let x0 := (0 + e / 2 * 1)%R.
Let x1 := (0 + e * 1)%R.
Let x2 := (0 + 2 * e * 1)%R.
Let y0 := (x0 + e / 2 / 2 * (1 / 2))%R.
Let y1 := (x1 + e / 2 * (1 / 2))%R.
Let y2 := (x2 + 2 * e / 2 * (1 / 2))%R.
Notation tab a b c := [flat a; flat b; flat c].
Lemma ad_step1 s : a_u s = [tab 0%R 0%R 0%R; tab 0%R 0%R 0%R; tab 0%R 0%R 0%R] -> a_best s = 1 -> a_eps s = [e / 2; e; 2 * e]%R -> a_prev s = 0%R ->
  a_olog s = [0; 0; 0]%R -> length (a_elog s) = 3 -> a_stop s = false ->
  exists el, length el = 3 /\
  adapt_step (A := LAlg) (mid 1) 1 g 2 1 None 1 0 s
  = Ok (mkAst (A := LAlg) [tab 0%R 0%R 0%R; tab x0 x1 x2; tab 0%R 0%R 0%R] 0 [e / 2 / 2; e / 2; 2 * e / 2]%R (sqrt 3 / 2)
     (map Some [num (cis (- x0)); num (cis (- x1)); num (cis (- x2))]) 0 [sqrt 3 / 2; 0; 0]%R el false).
Proof.
  intros Eu Eb Ee Ep Eo Le Es. pose proof sq3. exists (upd (a_elog s) 0 e). split; [now rewrite upd_length|].
  unfold adapt_step. rewrite Es, Eu, Eb, Ee, Ep, Eo. cbn [get nth_error bind]. rewrite set_ok by lia. cbn [bind].
  change (time_step (A := LAlg) g) with (Ok (1 - 0)%R). cbn [bind]. rewrite adl_slots. cbn [bind]. rewrite adl_fb. cbn [bind].
  rewrite (adl_update (PI / 2) 3 e (e / 2) e (2 * e) 1 0 0 0 0 eq_refl). rewrite Rminus_0_r, sin_PI2. fold x0 x1 x2.
  cbn [bind]. rewrite set_ok by (cbn; lia). cbn [bind map_res]. rewrite !adl_final. cbn [bind map].
  change (fidelity (g_ps g) (goverlap (A := LAlg) 1 (num (cis (- x0))) (g_U g))) with (score (A := LAlg) 1 g (num (cis (- x0)))).
  change (fidelity (g_ps g) (goverlap (A := LAlg) 1 (num (cis (- x1))) (g_U g))) with (score (A := LAlg) 1 g (num (cis (- x1)))).
  change (fidelity (g_ps g) (goverlap (A := LAlg) 1 (num (cis (- x2))) (g_U g))) with (score (A := LAlg) 1 g (num (cis (- x2)))).
  rewrite !score_sin. unfold x0, x1, x2. rewrite sn0, sn1, sn2. fold x0 x1 x2.
  cbn [argmax argmax_from]. rewrite (gt (sqrt 3 / 2) (sqrt 3 / 2)), (gt (sqrt 3 / 2) (- (sqrt 3 / 2))) by lra. cbn [nth_error get bind].
  rewrite gt by lra. cbn [Nat.eqb bind]. cbn [upd set length Nat.ltb Nat.leb Nat.add bind halve map]. rewrite (gt 1 1) by lra. reflexivity.
Qed.
Lemma ad_step2 s : a_u s = [tab 0%R 0%R 0%R; tab x0 x1 x2; tab 0%R 0%R 0%R] -> a_best s = 0 -> a_eps s = [e / 2 / 2; e / 2; 2 * e / 2]%R -> a_prev s = (sqrt 3 / 2)%R ->
  a_olog s = [sqrt 3 / 2; 0; 0]%R -> length (a_elog s) = 3 -> a_stop s = false ->
  exists el ep, length el = 3 /\
  adapt_step (A := LAlg) (mid 1) 1 g 2 1 None 1 1 s
  = Ok (mkAst (A := LAlg) [tab 0%R 0%R 0%R; tab x0 x1 x2; tab x0 x1 x2] 0 ep (sqrt 3 / 2)
     (map Some [num (cis (- y0)); num (cis (- y1)); num (cis (- y2))]) 1 [sqrt 3 / 2; sin (PI / 12); 0]%R el false).
Proof.
  intros Eu Eb Ee Ep Eo Le Es. pose proof sq3. pose proof order as HO. eexists (upd (a_elog s) 1 _), _. split; [now rewrite upd_length|].
  unfold adapt_step. rewrite Es, Eu, Eb, Ee, Ep, Eo. cbn [get nth_error bind]. rewrite set_ok by lia. cbn [bind].
  change (time_step (A := LAlg) g) with (Ok (1 - 0)%R). cbn [bind]. rewrite adl_slots. cbn [bind]. rewrite adl_fb. cbn [bind].
  rewrite (adl_update (PI / 2) 3 e (e / 2 / 2) (e / 2) (2 * e / 2) 0 x0 x1 x2 x0 eq_refl).
  replace (sin (PI / 2 - x0)) with (1 / 2)%R by (unfold x0; now rewrite slope1). fold y0 y1 y2.
  cbn [bind]. rewrite set_ok by (cbn; lia). cbn [bind map_res]. rewrite !adl_final. cbn [bind map].
  change (fidelity (g_ps g) (goverlap (A := LAlg) 1 (num (cis (- y0))) (g_U g))) with (score (A := LAlg) 1 g (num (cis (- y0)))).
  change (fidelity (g_ps g) (goverlap (A := LAlg) 1 (num (cis (- y1))) (g_U g))) with (score (A := LAlg) 1 g (num (cis (- y1)))).
  change (fidelity (g_ps g) (goverlap (A := LAlg) 1 (num (cis (- y2))) (g_U g))) with (score (A := LAlg) 1 g (num (cis (- y2)))).
  rewrite !score_sin. change (sin y0) with (sin (0 + e / 2 * 1 + e / 2 / 2 * (1 / 2))). change (sin y1) with (sin (0 + e * 1 + e / 2 * (1 / 2))).
  change (sin y2) with (sin (0 + 2 * e * 1 + 2 * e / 2 * (1 / 2))). rewrite sm0, sm1, sm2.
  cbn [argmax argmax_from]. rewrite (gt (sin (PI / 12)) (- (1 / 2))), (gt (sin (PI / 12)) (- (sqrt 3 / 2))) by lra. cbn [nth_error get bind].
  rewrite lt by lra. cbn [Nat.eqb bind]. cbn [upd set length Nat.ltb Nat.leb Nat.add bind halve map]. rewrite (gt 1 1) by lra. reflexivity.
Qed.

Lemma adaptive_witness : exists res,
  grape_unitary_adaptive (A := LAlg) (mid 1) 1 1 g = Ok res /\
  ar_overlap res = [sqrt 3 / 2; sin (PI / 12); 0]%R /\ ar_u res = [flat 0] /\ ar_Ht res = flat x0 /\ ar_Uf res = Some (num (cis (- y0))).
Proof.
  set (s0 := mkAst (A := LAlg) [tab 0%R 0%R 0%R; tab 0%R 0%R 0%R; tab 0%R 0%R 0%R] 1 [e / 2; e; 2 * e]%R 0%R (repeat None 3) 0 [0; 0; 0]%R [0; 0; 0]%R false).
  destruct (ad_step1 s0) as (el & Le & E1); try reflexivity.
  match type of E1 with _ = Ok ?s => destruct (ad_step2 s) as (el2 & ep2 & Le2 & E2); try reflexivity; try exact Le end.
  exists (mkAres (A := LAlg) [flat 0] (Some (num (cis (- y0)))) (flat x0) el2 [sqrt 3 / 2; sin (PI / 12); 0]%R).
  splits; try reflexivity.
  transitivity (bind (for_each [0; 1] (adapt_step (A := LAlg) (mid 1) 1 g 2 1 None 1) s0) (adapt_result (A := LAlg) g)); [reflexivity|].
  cbn [for_each]. rewrite E1. cbn [bind]. rewrite E2. cbn [bind]. reflexivity.
Qed.

(** The same problem with the target 1/2: the first iteration stops. *)
Lemma half_lt : (1 / 2 < sqrt 3 / 2)%R.
Proof. assert (sqrt 1 < sqrt 3)%R by (apply sqrt_lt_1; lra). rewrite sqrt_1 in H. lra. Qed.
Lemma ad_stop s : a_u s = [tab 0%R 0%R 0%R; tab 0%R 0%R 0%R; tab 0%R 0%R 0%R] -> a_best s = 1 -> a_eps s = [e / 2; e; 2 * e]%R -> a_prev s = 0%R ->
  a_olog s = [0; 0; 0]%R -> length (a_elog s) = 3 -> a_stop s = false ->
  exists el, length el = 3 /\
  adapt_step (A := LAlg) (mid 1) 1 g 2 1 None (1 / 2) 0 s
  = Ok (mkAst (A := LAlg) [tab 0%R 0%R 0%R; tab x0 x1 x2; tab 0%R 0%R 0%R] 0 [e / 2 / 2; e / 2; 2 * e / 2]%R (sqrt 3 / 2)
     (map Some [num (cis (- x0)); num (cis (- x1)); num (cis (- x2))]) 0 [sqrt 3 / 2; 0; 0]%R el true).
Proof.
  intros Eu Eb Ee Ep Eo Le Es. pose proof sq3. exists (upd (a_elog s) 0 e). split; [now rewrite upd_length|].
  unfold adapt_step. rewrite Es, Eu, Eb, Ee, Ep, Eo. cbn [get nth_error bind]. rewrite set_ok by lia. cbn [bind].
  change (time_step (A := LAlg) g) with (Ok (1 - 0)%R). cbn [bind]. rewrite adl_slots. cbn [bind]. rewrite adl_fb. cbn [bind].
  rewrite (adl_update (PI / 2) 3 e (e / 2) e (2 * e) 1 0 0 0 0 eq_refl). rewrite Rminus_0_r, sin_PI2. fold x0 x1 x2.
  cbn [bind]. rewrite set_ok by (cbn; lia). cbn [bind map_res]. rewrite !adl_final. cbn [bind map].
  change (fidelity (g_ps g) (goverlap (A := LAlg) 1 (num (cis (- x0))) (g_U g))) with (score (A := LAlg) 1 g (num (cis (- x0)))).
  change (fidelity (g_ps g) (goverlap (A := LAlg) 1 (num (cis (- x1))) (g_U g))) with (score (A := LAlg) 1 g (num (cis (- x1)))).
  change (fidelity (g_ps g) (goverlap (A := LAlg) 1 (num (cis (- x2))) (g_U g))) with (score (A := LAlg) 1 g (num (cis (- x2)))).
  rewrite !score_sin. unfold x0, x1, x2. rewrite sn0, sn1, sn2. fold x0 x1 x2.
  cbn [argmax argmax_from]. rewrite (gt (sqrt 3 / 2) (sqrt 3 / 2)), (gt (sqrt 3 / 2) (- (sqrt 3 / 2))) by lra. cbn [nth_error get bind].
  rewrite gt by lra. cbn [Nat.eqb bind]. cbn [upd set length Nat.ltb Nat.leb Nat.add bind halve map].
  rewrite (lt (1 / 2) 1) by lra. rewrite (lt (1 / 2) (sqrt 3 / 2)) by apply half_lt. reflexivity.
Qed.
Lemma stop_witness : exists res,
  grape_unitary_adaptive (A := LAlg) (mid 1) 1 (1 / 2) g = Ok res /\
  ar_overlap res = [sqrt 3 / 2; 0; 0]%R /\ ar_u res = [] /\ ar_Ht res = flat 0 /\ ar_Uf res = Some (num (cis (- x0))).
Proof.
  set (s0 := mkAst (A := LAlg) [tab 0%R 0%R 0%R; tab 0%R 0%R 0%R; tab 0%R 0%R 0%R] 1 [e / 2; e; 2 * e]%R 0%R (repeat None 3) 0 [0; 0; 0]%R [0; 0; 0]%R false).
  destruct (ad_stop s0) as (el & Le & E1); try reflexivity.
  exists (mkAres (A := LAlg) [] (Some (num (cis (- x0)))) (flat 0) el [sqrt 3 / 2; 0; 0]%R).
  splits; try reflexivity.
  transitivity (bind (for_each [0; 1] (adapt_step (A := LAlg) (mid 1) 1 g 2 1 None (1 / 2)) s0) (adapt_result (A := LAlg) g)); [reflexivity|].
  cbn [for_each]. rewrite E1. cbn [bind]. rewrite step_stop by reflexivity. cbn [bind]. reflexivity.
Qed.
End Witness.
