(** Facts about the adaptive GRAPE loop, for any operator algebra. *)
From Coq Require Import Reals Lra.
From Coquelicot Require Import Coquelicot.
From Verif.Model Require Import Base Dyn Grape.
From Verif.Lib Require Import Lists Csum Mat MExp.
From Verif.Spec Require Import Evolution MatAlg Grapes.
From Verif.Proofs Require Import MatProps GrapeFacts GrapeMat.
Local Open Scope nat_scope.
Set Bullet Behavior "Strict Subproofs".

(** ** argmax *)
Lemma argmax_from_spec l : forall best bv k p, length p = k -> nth_error p best = Some bv -> (forall y, In y p -> (y <= bv)%R) ->
  let b := argmax_from best bv k l in
  exists x, nth_error (p ++ l) b = Some x /\ forall y, In y (p ++ l) -> (y <= x)%R.
Proof.
  induction l as [|a l IH]; intros best bv k p Lp Hb Hm; cbn [argmax_from].
  - rewrite app_nil_r. eauto.
  - unfold ltR. destruct Rlt_dec.
    + destruct (IH k a (S k) (p ++ [a])) as (x & Hx & Hy).
      * rewrite app_length; cbn; lia.
      * rewrite nth_error_app2 by lia. now replace (k - length p) with 0 by lia.
      * intros y Hin. apply in_app_iff in Hin as [Hin|[<-|[]]]; [apply Hm in Hin; lra|lra].
      * exists x. rewrite <- app_assoc in Hx, Hy. auto.
    + destruct (IH best bv (S k) (p ++ [a])) as (x & Hx & Hy).
      * rewrite app_length; cbn; lia.
      * rewrite nth_error_app1; auto. now apply nth_lt in Hb.
      * intros y Hin. apply in_app_iff in Hin as [Hin|[<-|[]]]; [auto|lra].
      * exists x. rewrite <- app_assoc in Hx, Hy. auto.
Qed.
Lemma argmax_spec l x : nth_error l (argmax l) = Some x -> forall y, In y l -> (y <= x)%R.
Proof.
  destruct l as [|a l]; cbn [argmax]; [discriminate|]. intros Hx y Hy.
  destruct (argmax_from_spec l 0 a 1 [a]) as (x' & Hx' & H'); auto.
  - intros z [<-|[]]. lra.
  - cbn [app] in *. rewrite Hx in Hx'. injection Hx' as ->. auto.
Qed.

Section Any.
Context {A : Alg} (one : Op A) (dim : nat) (g : gargs (Op A)).
Notation Op := (Op A).
Notation M := (length (g_times g)).
Notation J := (length (g_H g)).
Context (lim : option (R * R)) (terminate : R).

Definition triple (t : list pulse) : Prop := length t = 3 /\ Forall (shape J M) t.

Lemma set2_shape u j m x u' : set2 u j m x = Ok u' -> shape J M u -> shape J M u'.
Proof.
  unfold set2. intros H Su. apply bind_inv in H as (row & Er & H). apply bind_inv in H as (row' & Es & H).
  apply get_inv in Er. apply set_inv in Es as (_ & ->). apply set_inv in H as (Hj & ->). destruct Su as [L F].
  split; [now rewrite upd_length|]. apply Forall_upd; auto. rewrite upd_length. eapply Forall_forall in F; [exact F|]. eapply nth_error_In; eauto.
Qed.
Lemma triple_set v k vk v' p : triple v -> get v k = Ok vk -> (shape J M vk -> shape J M p) -> set v k p = Ok v' -> triple v'.
Proof.
  intros [L F] Hg Hp Hs. apply get_inv in Hg. apply set_inv in Hs as (Hk & ->). split; [now rewrite upd_length|].
  apply Forall_upd; auto. apply Hp. eapply Forall_forall in F; [exact F|]. eapply nth_error_In; eauto.
Qed.
Lemma update_ad_triple dt eps best fl bl u v : update_ad dim g M J lim dt eps best fl bl u = Ok v -> triple v.
Proof.
  unfold update_ad. intros H. refine (for_range_inv (fun _ v => triple v) _ _ _ _ H _ _); clear H v.
  - split; [apply repeat_length|]. apply Forall_forall. intros p Hp. apply repeat_spec in Hp as ->. apply zero_shape.
  - intros j v v' Hj Tv H. apply bind_inv in H as (v1 & E1 & H).
    assert (T1 : triple v1).
    { refine (for_range_inv (fun _ v => triple v) _ _ _ _ E1 Tv _). clear E1 v1 H v v' Tv.
      intros m v v' Hm Tv H. do 6 (apply bind_inv in H as (? & _ & H)).
      refine (for_range_inv (fun _ v => triple v) _ _ _ _ H Tv _). clear H v v' Tv.
      intros k v v' Hk Tv H. do 3 (apply bind_inv in H as (? & _ & H)). apply bind_inv in H as (vk & Ek & H). apply bind_inv in H as (vk' & Es & H).
      exact (triple_set v k vk v' vk' Tv Ek (set2_shape _ _ _ _ _ Es) H). }
    refine (for_range_inv (fun _ v => triple v) _ _ _ _ H T1 _). clear H v v' Tv E1 T1 v1.
    intros k v v' Hk Tv H. apply bind_inv in H as (vk & Ek & H). apply bind_inv in H as (l & _ & H). apply bind_inv in H as (vk' & Es & H).
    exact (triple_set v k vk v' vk' Tv Ek (set2_shape _ _ _ _ _ Es) H).
Qed.

(** One iteration. *)
Definition score (w : Op) : R := fidelity (g_ps g) (goverlap dim w (g_U g)).
Lemma step_inv r s s' : adapt_step one dim g M J lim terminate r s = Ok s' -> a_stop s = false ->
  exists dt ur v Uf o, time_step g = Ok dt /\ nth_error (a_u s) r = Some ur /\ triple v /\ r + 1 < length (a_u s) /\ r < length (a_olog s) /\
    map_res (fun vk => final_unitary one g M dt vk) v = Ok Uf /\
    nth_error (map score Uf) (a_best s') = Some o /\ (forall w, In w Uf -> (score w <= o)%R) /\
    a_r s' = r /\ a_Uf s' = map Some Uf /\ a_olog s' = upd (a_olog s) r o /\
    ((o < a_prev s)%R /\ a_prev s' = a_prev s /\ a_u s' = upd (upd (a_u s) (r + 1) v) (r + 1) ur /\ a_eps s' = halve (a_eps s) \/
     (a_prev s <= o)%R /\ a_prev s' = o /\ a_u s' = upd (a_u s) (r + 1) v).
Proof.
  unfold adapt_step. intros H E. rewrite E in H.
  apply bind_inv in H as (e & _ & H). apply bind_inv in H as (elog & _ & H). apply bind_inv in H as (dt & Edt & H).
  apply bind_inv in H as (ur & Eur & H). apply bind_inv in H as (ub & _ & H). apply bind_inv in H as (Us & _ & H).
  apply bind_inv in H as ([fl bl] & _ & H). apply bind_inv in H as (v & Ev & H). apply bind_inv in H as (u & Eu & H).
  apply bind_inv in H as (Uf & EUf & H). cbv zeta in H. fold (map score Uf) in H.
  change (map (fun w => fidelity (g_ps g) (goverlap dim w (g_U g))) Uf) with (map score Uf) in H.
  apply bind_inv in H as (o & Eo & H). apply bind_inv in H as ([[u' eps] prev] & Ep & H). apply bind_inv in H as (olog & Eol & H).
  injection H as <-. cbn [a_u a_best a_eps a_prev a_Uf a_r a_olog a_elog a_stop].
  apply get_inv in Eur, Eo. apply set_inv in Eu as (Hr & ->). apply set_inv in Eol as (Hl & ->).
  exists dt, ur, v, Uf, o. splits; auto.
  - eapply update_ad_triple; eauto.
  - intros w Hw. apply (argmax_spec _ _ Eo). now apply in_map.
  - unfold ltR in Ep. destruct (Rlt_dec o (a_prev s)).
    + left. apply bind_inv in Ep as (u1 & E1 & Ep). injection Ep as <- <- <-. apply set_inv in E1 as (_ & ->). auto.
    + right. injection Ep as <- <- <-. splits; auto. lra.
Qed.
Lemma step_stop r s : a_stop s = true -> adapt_step one dim g M J lim terminate r s = Ok s.
Proof. intros E. unfold adapt_step. now rewrite E. Qed.

(** The largest overlap of the first [n] iterations (at least 0). *)
Notation best_so_far := Grapes.best_so_far.
Lemma best_upd log r o n : n <= r -> best_so_far (upd log r o) n = best_so_far log n.
Proof.
  unfold best_so_far. intros H. f_equal. revert r n H. induction log as [|a log IH]; intros [|r] [|n] H; cbn; auto; try lia.
  now rewrite IH by lia.
Qed.
Lemma best_next log r o : nth_error log r = Some o -> best_so_far log (r + 1) = Rmax (best_so_far log r) o.
Proof.
  unfold best_so_far. intros H. generalize 0%R as b. revert log H. induction r as [|r IH]; intros [|a log] H b; cbn in *; try discriminate.
  - injection H as ->. destruct log; auto.
  - now apply IH.
Qed.

(** What holds after an iteration [r] has been done. *)
Definition settled (dt : R) (s : ast (A := A)) (r : nat) : Prop :=
  exists ur ur' o, nth_error (a_u s) r = Some ur /\ nth_error (a_u s) (r + 1) = Some ur' /\ nth_error (a_olog s) r = Some o /\ triple ur' /\
    ((o < best_so_far (a_olog s) r)%R /\ ur' = ur \/
     (best_so_far (a_olog s) r <= o)%R /\
     exists Uf, map_res (fun vk => final_unitary one g M dt vk) ur' = Ok Uf /\
       (exists k w, nth_error Uf k = Some w /\ score w = o) /\ (forall w, In w Uf -> (score w <= o)%R)).
Definition loop_inv (k : nat) (s : ast (A := A)) : Prop :=
  length (a_u s) = g_R g /\ length (a_olog s) = g_R g /\ Forall triple (a_u s) /\
  exists n, n <= k /\ (a_stop s = false -> n = k) /\ (n = 0 -> a_r s = 0 /\ a_stop s = false) /\ (n <> 0 -> a_r s = n - 1) /\
    a_prev s = best_so_far (a_olog s) n /\
    (n <> 0 -> exists dt o w, time_step g = Ok dt /\ (forall r, r < n -> settled dt s r) /\
       nth_error (a_Uf s) (a_best s) = Some (Some w) /\ nth_error (a_olog s) (n - 1) = Some o /\ score w = o /\
       exists p, shape J M p /\ final_unitary one g M dt p = Ok w).

Lemma loop_start e u0 s : shape J M u0 -> 1 <= g_R g -> adapt_start g e u0 = Ok s -> loop_inv 0 s.
Proof.
  intros S0 HR H. unfold adapt_start in H. destruct (g_R g) as [|n] eqn:ER; [lia|]. cbn [bind] in H. injection H as <-.
  unfold loop_inv. rewrite ER. cbn [a_u a_olog a_stop a_r a_prev]. splits.
  - cbn. rewrite repeat_length. lia.
  - cbn. now rewrite repeat_length.
  - assert (T : forall p, shape J M p -> triple (repeat p 3)).
    { intros p Sp. split; [apply repeat_length|]. apply Forall_forall. intros q Hq. apply repeat_spec in Hq as ->. auto. }
    constructor; [now apply T|]. apply Forall_forall. intros q Hq. apply repeat_spec in Hq as ->. apply T, zero_shape.
  - exists 0. splits; auto; lia.
Qed.
Lemma loop_step k s s' : loop_inv k s -> adapt_step one dim g M J lim terminate k s = Ok s' -> loop_inv (1 + k) s'.
Proof.
  intros (Lu & Ll & Ft & n & Hn & Hst & H0 & H1 & Hp & HQ) H.
  destruct (a_stop s) eqn:Est.
  - rewrite step_stop in H by auto. injection H as <-. unfold loop_inv. splits; auto. exists n. splits; auto; try lia; intros; congruence.
  - specialize (Hst eq_refl). subst n.
    destruct (step_inv k s s' H Est) as (dt & ur & v & Uf & o & Edt & Eur & Tv & Lr & Lo & EU & Eo & Hm & Er & EUf & El & Hc).
    assert (Tur : triple ur) by (eapply Forall_forall in Ft; [exact Ft|]; eapply nth_error_In; eauto).
    assert (Hlog : nth_error (a_olog s') k = Some o) by (rewrite El; now apply nth_upd_eq).
    assert (Hbest : best_so_far (a_olog s') (k + 1) = Rmax (a_prev s) o).
    { rewrite (best_next _ _ _ Hlog), El, best_upd by auto. now rewrite Hp. }
    assert (Hu : exists x, a_u s' = x /\ length x = length (a_u s) /\ (forall i, i <> k + 1 -> nth_error x i = nth_error (a_u s) i) /\ Forall triple x).
    { eexists. split; [reflexivity|]. destruct Hc as [(_ & _ & -> & _)|(_ & _ & ->)].
      - rewrite !upd_length. splits; auto; [|now repeat apply Forall_upd]. intros i Hi. now rewrite !nth_upd_neq by auto.
      - rewrite !upd_length. splits; auto; [|now repeat apply Forall_upd]. intros i Hi. now rewrite !nth_upd_neq by auto. }
    destruct Hu as (x & Ex & Lx & Nx & Fx).
    unfold loop_inv. rewrite Ex. splits; [congruence|rewrite El, upd_length; auto|auto|].
    exists (1 + k). splits; auto; try lia.
    + replace (1 + k) with (k + 1) by lia. rewrite Hbest. destruct Hc as [(Hlt & -> & _)|(Hge & -> & _)].
      * now rewrite Rmax_left by lra.
      * now rewrite Rmax_right by lra.
    + intros _. replace (1 + k - 1) with k by lia.
      assert (Ew : exists w, nth_error Uf (a_best s') = Some w /\ score w = o).
      { rewrite nth_error_map in Eo. destruct (nth_error Uf (a_best s')) as [w|]; [|discriminate]. injection Eo as <-. eauto. }
      destruct Ew as (w & Ew & Es).
      exists dt, o, w. splits; auto.
      * intros r Hr. destruct (Nat.eq_dec r k) as [-> |Hrk].
        -- unfold settled. rewrite Ex. exists ur. destruct Hc as [(Hlt & Hpv & Eu & _)|(Hge & Hpv & Eu)]; rewrite <- Ex, Eu.
           ++ exists ur, o. rewrite !nth_upd_neq by lia. rewrite nth_upd_eq by (rewrite upd_length; lia). splits; auto.
              left. split; auto. rewrite El, best_upd by auto. now rewrite <- Hp.
           ++ exists v, o. rewrite nth_upd_neq by lia. rewrite nth_upd_eq by lia. splits; auto. right.
              split; [rewrite El, best_upd by auto; now rewrite <- Hp|]. exists Uf. splits; eauto.
        -- destruct (HQ ltac:(lia)) as (dt' & _ & _ & Edt' & HQ' & _). rewrite Edt in Edt'. injection Edt' as <-.
           destruct (HQ' r ltac:(lia)) as (p & p' & o' & E1 & E2 & E3 & T' & Hcc).
           exists p, p', o'. rewrite Ex. rewrite !Nx by lia. rewrite El, nth_upd_neq by auto. rewrite best_upd by lia. splits; auto.
      * rewrite EUf, nth_error_map, Ew. reflexivity.
      * destruct (nth_error v (a_best s')) as [p|] eqn:Ep.
        -- destruct (map_res_nth _ _ _ _ _ EU Ep) as (y & Ey & Hy). exists p. split.
           ++ destruct Tv as [_ Fv]. eapply Forall_forall in Fv; [exact Fv|]. eapply nth_error_In; eauto.
           ++ congruence.
        -- apply nth_error_None in Ep. apply nth_lt in Ew. apply map_res_length in EU. lia.
Qed.

Lemma adaptive_inv res : grape_unitary_adaptive one dim terminate g = Ok res -> 1 <= g_R g ->
  exists lm s, read_limits (g_limits g) = Ok lm /\ (lm = lim -> loop_inv (g_R g - 1) s) /\ adapt_result g s = Ok res.
Proof.
  unfold grape_unitary_adaptive. intros H HR.
  apply bind_inv in H as (e & _ & H). apply bind_inv in H as (lm & El & H). apply bind_inv in H as (u0 & E0 & H).
  apply bind_inv in H as (s0 & Es & H). apply bind_inv in H as (s & Eloop & H).
  exists lm, s. splits; auto. intros ->.
  refine (for_range_inv loop_inv _ _ _ _ Eloop _ _).
  - eapply loop_start; eauto. eapply first_shape; eauto.
  - intros k x x' _ Hx E. eapply loop_step; eauto.
Qed.

(** ** When the loop stops. *)
Definition reached (o : R) : Prop := (terminate < 1)%R /\ (terminate < o)%R.
Definition stop_inv (k : nat) (s : ast (A := A)) : Prop :=
  length (a_u s) = g_R g /\ length (a_olog s) = g_R g /\
  exists n, n <= k /\ (a_stop s = false -> n = k) /\ (a_stop s = true -> n <> 0 /\ exists o, nth_error (a_olog s) (n - 1) = Some o /\ reached o) /\
    (n <> 0 -> a_r s = n - 1) /\
    (forall r o, S r < n -> nth_error (a_olog s) r = Some o -> ~ reached o) /\
    (a_stop s = false -> forall r o, r < n -> nth_error (a_olog s) r = Some o -> ~ reached o) /\
    (forall r, n <= r < g_R g -> nth_error (a_olog s) r = Some 0%R).
Lemma step_reached r s s' : adapt_step one dim g M J lim terminate r s = Ok s' -> a_stop s = false ->
  exists o, a_olog s' = upd (a_olog s) r o /\ r < length (a_olog s) /\ a_r s' = r /\ length (a_u s') = length (a_u s) /\
    (a_stop s' = true <-> reached o).
Proof.
  unfold adapt_step. intros H E. rewrite E in H.
  apply bind_inv in H as (e & _ & H). apply bind_inv in H as (elog & _ & H). apply bind_inv in H as (dt & Edt & H).
  apply bind_inv in H as (ur & Eur & H). apply bind_inv in H as (ub & _ & H). apply bind_inv in H as (Us & _ & H).
  apply bind_inv in H as ([fl bl] & _ & H). apply bind_inv in H as (v & Ev & H). apply bind_inv in H as (u & Eu & H).
  apply bind_inv in H as (Uf & EUf & H). cbv zeta in H.
  apply bind_inv in H as (o & Eo & H). apply bind_inv in H as ([[u' eps] prev] & Ep & H). apply bind_inv in H as (olog & Eol & H).
  injection H as <-. cbn [a_olog a_r a_stop a_u]. apply set_inv in Eol as (Hl & ->). apply set_inv in Eu as (_ & ->). exists o. splits; auto.
  - destruct (ltR o (a_prev s)); [apply bind_inv in Ep as (u1 & E1 & Ep); apply set_inv in E1 as (_ & ->)|]; injection Ep as <- _ _; now rewrite ?upd_length.
  - unfold reached, ltR. destruct (Rlt_dec terminate 1), (Rlt_dec terminate o); cbn; intuition congruence.
Qed.
Lemma stop_start e u0 s : 1 <= g_R g -> adapt_start g e u0 = Ok s -> stop_inv 0 s.
Proof.
  intros HR H. unfold adapt_start in H. destruct (g_R g) as [|n] eqn:ER; [lia|]. cbn [bind] in H. injection H as <-.
  unfold stop_inv. rewrite ER. cbn [a_u a_olog a_stop a_r]. splits.
  - cbn. rewrite repeat_length. lia.
  - cbn. now rewrite repeat_length.
  - exists 0. splits; auto; try lia; try discriminate. intros r Hr. change (0%R :: repeat 0%R n) with (repeat 0%R (S n)). apply nth_error_repeat. lia.
Qed.
Lemma stop_step k s s' : k < g_R g - 1 -> stop_inv k s -> adapt_step one dim g M J lim terminate k s = Ok s' -> stop_inv (1 + k) s'.
Proof.
  intros Hk (Lu & Ll & n & Hn & Hf & Ht & Hr & Hb & Hb' & Hz) H. destruct (a_stop s) eqn:E.
  - rewrite step_stop in H by auto. injection H as <-. unfold stop_inv. splits; auto. exists n. rewrite E. splits; auto; try lia; try discriminate.
  - specialize (Hf eq_refl). subst n. destruct (step_reached k s s' H E) as (o & El & Hl & Er & Lu' & Hs).
    unfold stop_inv. rewrite El. splits; [congruence|rewrite upd_length; auto|]. exists (S k). cbn [Nat.sub]. rewrite Nat.sub_0_r. splits; auto.
    + intros T. split; [lia|]. exists o. rewrite nth_upd_eq by auto. split; auto. now apply Hs.
    + intros r x Hrx Hx. rewrite nth_upd_neq in Hx by lia. apply (Hb' eq_refl r x); auto. lia.
    + intros F r x Hrx Hx. destruct (Nat.eq_dec r k) as [-> |Nk].
      * rewrite nth_upd_eq in Hx by auto. injection Hx as <-. intros T. apply Hs in T. congruence.
      * rewrite nth_upd_neq in Hx by lia. apply (Hb' eq_refl r x); auto. lia.
    + intros r Hrx. rewrite nth_upd_neq by lia. apply Hz. lia.
Qed.
End Any.
Lemma adaptive_stop {A : Alg} (one : Op A) (dim : nat) (g : gargs (Op A)) terminate res :
  grape_unitary_adaptive one dim terminate g = Ok res -> 1 <= g_R g ->
  exists s, stop_inv g terminate (g_R g - 1) s /\ adapt_result g s = Ok res.
Proof.
  unfold grape_unitary_adaptive. intros H HR.
  apply bind_inv in H as (e & _ & H). apply bind_inv in H as (lm & El & H). apply bind_inv in H as (u0 & E0 & H).
  apply bind_inv in H as (s0 & Es & H). apply bind_inv in H as (s & Eloop & H).
  exists s. split; auto. refine (for_range_inv (stop_inv g terminate) _ _ _ _ Eloop _ _).
  - eapply stop_start; eauto.
  - intros k x x' Hk Hx E. eapply stop_step; eauto.
Qed.
