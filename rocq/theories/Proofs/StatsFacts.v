(** The update counters of the statistics over histories: only
    [update_ctrl_amps] touches them. *)
From Coq Require Import Reals.
From Coquelicot Require Import Complex.
From RecordUpdate Require Import RecordUpdate.
From Verif.Model Require Import Base Dyn.
From Verif.Lib Require Import Lists.
From Verif.Spec Require Import Evolution History Counting.
From Verif.Proofs Require Import DynRun DynHist DynHistory DynMore DynFrame.
Local Open Scope nat_scope.
Set Bullet Behavior "Strict Subproofs".

Section Frame.
Context {A : Alg}.
Implicit Types d : dyn A.

Definition cnt d := option_map (fun x => (st_upd x, st_chg x, st_ts x)) (d_stats d).
Definition same d d' : Prop := cnt d' = cnt d.
Lemma same_refl d : same d d. Proof. reflexivity. Qed.
Lemma same_trans d1 d2 d3 : same d1 d2 -> same d2 d3 -> same d1 d3.
Proof. unfold same; congruence. Qed.
Hint Resolve same_refl : core.
Ltac sm := try solve [unfold same, cnt; cbn; auto].

Lemma combine_same k d d' : combine_dyn_gen k d = Ok d' -> same d d'.
Proof. unfold combine_dyn_gen; intros H; inv_ok; sm. Qed.
Lemma spectral_same k d d' : spectral_decomp k d = Ok d' -> same d d'.
Proof. unfold spectral_decomp; intros H; inv_ok; sm. Qed.
Lemma ensure_same k d d' : ensure_decomp_curr k d = Ok d' -> same d d'.
Proof. unfold ensure_decomp_curr; intros H; inv_ok; sm. eapply spectral_same; eauto. Qed.
Lemma prop_same k d d' p : compute_propagator k d = Ok (d', p) -> same d d'.
Proof. unfold compute_propagator; intros H; inv_ok; sm. eapply ensure_same; eauto. Qed.
Lemma pgrad_same k j d d' p : compute_prop_grad k j d = Ok (d', p) -> same d d'.
Proof.
  unfold compute_prop_grad; intros H; inv_ok; sm.
  eapply same_trans; [eapply ensure_same; eauto|eapply prop_same; eauto].
Qed.
Lemma set_pg_same d k j g d' : set_pg d k j g = Ok d' -> same d d'.
Proof. unfold set_pg; intros H; inv_ok; sm. Qed.
Lemma step_dyn_gen_same k d d' : step_dyn_gen k d = Ok d' -> same d d'.
Proof.
  unfold step_dyn_gen; intros H; inv_ok; match goal with H : combine_dyn_gen _ _ = _ |- _ => apply combine_same in H end;
  auto; eapply same_trans; eauto; sm.
Qed.
Lemma step_prop_same nc k d d' : step_prop nc k d = Ok d' -> same d d'.
Proof.
  unfold step_prop; intros H; inv_ok.
  - eapply (for_each_inv (same d)); eauto. cbv beta. intros j s s' K E.
    apply bind_inv in E; destruct E as ((d1 & p & g) & E1 & E).
    apply bind_inv in E; destruct E as (d2 & E2 & E).
    eapply same_trans; [exact K|]; eapply same_trans; [eapply pgrad_same; eauto|].
    eapply same_trans; [|eapply set_pg_same; eauto]; inv_ok; sm.
  - eapply same_trans; [eapply prop_same; eauto|]; sm.
Qed.
Lemma num_ctrls_same d d' n : get_num_ctrls d = Ok (d', n) -> same d d'.
Proof. unfold get_num_ctrls; intros H. destruct (s_class (d_set d)), (d_mapped d); inv_ok; sm. Qed.

Lemma recompute_same d d' : recompute_evolution d = Ok d' -> same d d'.
Proof.
  unfold recompute_evolution; intros H.
  apply bind_inv in H; destruct H as ((d1 & nc) & E1 & H). apply num_ctrls_same in E1.
  apply bind_inv in H; destruct H as (d2 & E2 & H).
  apply bind_inv in H; destruct H as (d3 & E3 & H).
  apply bind_inv in H; destruct H as (d4 & E4 & H).
  apply bind_inv in H; destruct H as (d5 & E5 & H).
  eapply same_trans; [exact E1|].
  apply (for_each_inv (same d1)) in E2.
  2: { unfold same, cnt; cbn. destruct (d_stats d1) eqn:Q; cbn; rewrite ?Q; auto. }
  2: { intros k s s' K E. eapply same_trans; [exact K|]. eapply step_dyn_gen_same; eauto. }
  eapply same_trans; [exact E2|].
  apply (for_each_inv (same d2)) in E3; auto.
  2: { intros k s s' K E. eapply same_trans; [exact K|]. eapply step_prop_same; eauto. }
  eapply same_trans; [exact E3|].
  apply (for_each_inv (same d3)) in E4; auto.
  2: { intros k s s' K E. eapply same_trans; [exact K|]. unfold step_fwd in E; inv_ok; sm. }
  eapply same_trans; [exact E4|].
  eapply same_trans with (d2 := d5).
  - clear H. inv_ok; auto. eapply (for_each_inv (same d4)); eauto; sm.
    intros k s s' K E. eapply same_trans; [exact K|]. unfold step_onwd in E; inv_ok; sm.
  - clear E5. destruct (uses_onto _); [|injection H as <-; auto]. eapply (for_each_inv (same d5)); eauto; sm.
    intros k s s' K E. eapply same_trans; [exact K|]. unfold step_onto in E; inv_ok; sm.
Qed.

Lemma evo_same d d' b : compute_evolution d = Ok (d', b) -> same d d'.
Proof.
  unfold compute_evolution; intros H; inv_ok; auto.
  all: match goal with H : recompute_evolution _ = _ |- _ => apply recompute_same in H end; sm.
Qed.
Lemma bump_fid_same d : same d (bump_fid d).
Proof. unfold bump_fid, same, cnt. destruct (d_stats d) eqn:E; cbn; rewrite ?E; auto. Qed.
Lemma bump_grad_same d : same d (bump_grad d).
Proof. unfold bump_grad, same, cnt. destruct (d_stats d) eqn:E; cbn; rewrite ?E; auto. Qed.
Lemma prenorm_same d d' f : get_fidelity_prenorm d = Ok (d', f) -> same d d'.
Proof.
  unfold get_fidelity_prenorm; intros H; inv_ok; auto.
  match goal with H : compute_evolution _ = _ |- _ => apply evo_same in H end.
  eapply same_trans; [|apply bump_fid_same]. eapply same_trans; [eassumption|sm].
Qed.
Lemma fidelity_same d d' f : get_fidelity d = Ok (d', f) -> same d d'.
Proof.
  unfold get_fidelity; intros H; inv_ok; auto.
  match goal with H : get_fidelity_prenorm _ = _ |- _ => apply prenorm_same in H end.
  eapply same_trans; [eassumption|sm].
Qed.
Lemma fid_err_same d d' f : get_fid_err d = Ok (d', f) -> same d d'.
Proof.
  unfold get_fid_err; intros H; inv_ok; auto.
  - eapply fidelity_same; eauto.
  - match goal with H : compute_evolution _ = _ |- _ => apply evo_same in H end.
    match goal with |- same _ (?b <| d_fidst; f_fid_cur := true |>) => apply (same_trans _ b); [|sm] end.
    eapply same_trans; [|apply bump_fid_same]. eapply same_trans; [eassumption|sm].
Qed.
Lemma get_pg_same k j d d' g : get_prop_grad k j d = Ok (d', g) -> same d d'.
Proof. unfold get_prop_grad; intros H; inv_ok; auto. eapply pgrad_same; eauto. Qed.
Lemma fill_same {X} n nc (f : nat -> nat -> dyn A -> Res (dyn A * X)) z d d' g :
  (forall k j d d' v, f k j d = Ok (d', v) -> same d d') ->
  fill_grad n nc f z d = Ok (d', g) -> same d d'.
Proof.
  intros Hf H. unfold fill_grad in H.
  apply (for_each_inv (fun s => same d (fst s))) in H; auto.
  intros j s s' K E. apply (for_each_inv (fun s => same d (fst s))) in E; auto.
  clear - Hf. intros k [d1 g1] [d2 g2] K E. cbn [fst] in *. inv_ok.
  eapply same_trans; [exact K|]. eapply Hf; eauto.
Qed.
Lemma gradient_same d d' g : get_fid_err_gradient d = Ok (d', g) -> same d d'.
Proof.
  unfold get_fid_err_gradient; intros H. destruct (f_grad_cur (d_fidst d)); [inv_ok; auto|].
  apply bind_inv in H as ([d1 g1] & E & H). injection H as <- <-.
  assert (S1 : same d d1).
  { destruct (s_fid (d_set d)).
    - apply bind_inv in E as ([d2 gp] & E2 & E). apply bind_inv in E as ([d3 f] & E3 & E).
      apply bind_inv in E as ([d4 pn] & E4 & E). injection E as <- _.
      apply fidelity_same in E3. apply prenorm_same in E4.
      eapply same_trans; [|eapply same_trans; [exact E3|exact E4]].
      unfold compute_fid_grad in E2. apply bind_inv in E2 as ([d5 nc] & E5 & E2).
      apply bind_inv in E2 as ([d6 b] & E6 & E2). apply num_ctrls_same in E5. apply evo_same in E6.
      eapply same_trans; [exact E5|eapply same_trans; [exact E6|]].
      eapply fill_same; [|exact E2]. intros k j u v w Eu. unfold unit_grad_entry in Eu. inv_ok. eapply get_pg_same; eauto.
    - unfold compute_fid_err_grad in E. apply bind_inv in E as ([d5 nc] & E5 & E).
      apply bind_inv in E as ([d6 b] & E6 & E). apply num_ctrls_same in E5. apply evo_same in E6.
      eapply same_trans; [exact E5|eapply same_trans; [exact E6|]].
      eapply fill_same; [|exact E]. intros k j u v w Eu. unfold trace_grad_entry in Eu. inv_ok; eapply get_pg_same; eauto. }
  eapply same_trans; [exact S1|].
  eapply same_trans with (d2 := bump_grad (d1 <| d_fidst; f_grad := Some g1 |> <| d_fidst; f_grad_cur := true |>)).
  - eapply same_trans; [|apply bump_grad_same]. sm.
  - sm.
Qed.

Lemma step_same o d d' : (forall b, o <> UpdateAmps b) -> step o d = Ok d' -> same d d'.
Proof.
  intros N. destruct o as [b| | | | | | | | | | ]; cbn [step]; unfold lift; intros H;
    try (apply bind_inv in H as ([d1 x1] & E & H); injection H as <-).
  - now destruct (N b).
  - eapply evo_same; eauto.
  - eapply fid_err_same; eauto.
  - eapply fidelity_same; eauto.
  - eapply gradient_same; eauto.
  - injection H as <-. unfold get_dyn_gen. destruct (d_dg_q d); sm.
  - injection H as <-. unfold get_prop. destruct (d_prop_q d); sm.
  - injection H as <-. unfold get_prop_grads. destruct (d_pg d), (d_pg_q d); sm.
  - injection H as <-. unfold get_fwd_evo. destruct (d_fwd_q d); sm.
  - injection H as <-. unfold get_onwd_evo. destruct (d_onwd d), (d_onwd_q d); sm.
  - injection H as <-. unfold get_onto_evo. destruct (d_onto d), (d_onto_q d); sm.
Qed.
End Frame.

Lemma run_snoc {A : Alg} ops o (d : dyn A) : run (ops ++ [o]) d = (d1 <- run ops d;; step o d1).
Proof.
  revert d; induction ops as [|p ops IH]; intros d; cbn [run app].
  - cbn [bind]. destruct (step o d); reflexivity.
  - destruct (step p d); cbn [bind]; auto.
Qed.
Lemma session_snoc {A : Alg} (s : settings A) st a ops o :
  session s st a (ops ++ [o]) = (d <- session s st a ops;; step o d).
Proof.
  unfold session. destruct (initialize_controls a (new_dyn s st)); cbn [bind]; auto. apply run_snoc.
Qed.

Lemma changes_snoc a ops o : changes a (ops ++ [o]) = changes a ops + changes (latest a ops) [o].
Proof. revert a; induction ops as [|p ops IH]; intros a; cbn [app]; auto. destruct p; cbn [changes latest] in *; rewrite IH; lia. Qed.
Lemma slots_snoc a ops o : slots_changed a (ops ++ [o]) = slots_changed a ops + slots_changed (latest a ops) [o].
Proof. revert a; induction ops as [|p ops IH]; intros a; cbn [app]; auto. destruct p; cbn [slots_changed latest] in *; rewrite IH; lia. Qed.
Lemma amps_snoc a ops o : amps_changed a (ops ++ [o]) = amps_changed a ops + amps_changed (latest a ops) [o].
Proof. revert a; induction ops as [|p ops IH]; intros a; cbn [app]; auto. destruct p; cbn [amps_changed latest] in *; rewrite IH; lia. Qed.

Lemma differs_same {X} (dec : forall x y : X, {x = y} + {x <> y}) l : length (filter (differs dec) (combine l l)) = 0.
Proof. induction l as [|x l IH]; cbn; auto. unfold differs at 1. cbn. destruct (dec x x); [auto|congruence]. Qed.

Lemma init_evo_same {A : Alg} (d d' : dyn A) : init_evo d = Ok d' -> same d d'.
Proof.
  unfold init_evo; intros H.
  apply bind_inv in H; destruct H as (d0 & E0 & H).
  apply bind_inv in H; destruct H as ((d1 & nc) & E1 & H).
  assert (Q0 : d_stats d0 = d_stats d) by (unfold refresh_drift_attribs in E0; inv_ok; auto).
  apply num_ctrls_same in E1.
  assert (Q1 : d_stats (init_phase d0) = d_stats d0) by (unfold init_phase; destruct (s_phase (d_set d0)); auto).
  unfold same, cnt in *. rewrite Q1, Q0 in E1. rewrite <- E1.
  injection H as <-. clear.
  destruct (s_cache_ph (d_set d1)), (grad_exact (s_prop (d_set d1)) && s_cache_pg (d_set d1)),
    (uses_onwd (s_fid (d_set d1))), (uses_onto (s_fid (d_set d1))), (s_prop (d_set d1)), (s_cache_adj (d_set d1)); reflexivity.
Qed.

Lemma initialize_counts {A : Alg} (s : settings A) n m a d :
  shape n m a -> 0 < n * m -> initialize_controls a (new_dyn s true) = Ok d -> cnt d = Some (1, n * m, n).
Proof.
  intros Ha Hp H. unfold initialize_controls in H.
  set (d0 := match s_class (d_set (new_dyn s true)) with Unitary => _ | GenMat => _ end) in H.
  assert (Q0 : cnt d0 = Some (0, 0, 0)) by (unfold d0; destruct (s_class _); reflexivity). clearbody d0.
  apply bind_inv in H as (d1 & E & H). pose proof (init_evo_amps _ _ E) as E'. apply init_evo_same in E.
  assert (Q : d_amps (fid_init_comp d1) = d_amps d1 /\ d_stats (fid_init_comp d1) = d_stats d1)
    by (unfold fid_init_comp; destruct (s_fid (d_set d1)); auto; destruct (s_scale (d_set d1)); auto).
  destruct Q as [Qa Qs]. set (d2 := (fid_init_comp d1) <| d_init := true |>) in H.
  assert (A2 : d_amps d2 = None) by (cbn; rewrite Qa, E'; reflexivity).
  assert (S2 : cnt d2 = Some (0, 0, 0)) by (unfold cnt; cbn; rewrite Qs; unfold same, cnt in E; cbn in E; rewrite E; exact Q0).
  clearbody d2. unfold update_ctrl_amps, compare_amps in H. rewrite A2 in H. cbn [bind] in H.
  rewrite (concat_len n m a Ha) in H. destruct Ha as [La _]. rewrite La in H.
  assert (N : (n * m =? 0) = false) by (apply Nat.eqb_neq; lia). rewrite N in H.
  unfold cnt in *. destruct (d_stats d2) as [x|] eqn:X; [|discriminate]. injection S2 as U1 U2 U3.
  injection H as <-. cbn. rewrite U1, U2, U3. reflexivity.
Qed.

Lemma session_counts {A : Alg} (s : settings A) n m a ops :
  well_posed s n m -> routines_ok s n m -> shape n m a -> 0 < m -> Forall (call_ok s n m) ops ->
  exists d x, session s true a ops = Ok d /\ d_stats d = Some x /\
    st_upd x = 1 + changes a ops /\ st_ts x = n + slots_changed a ops /\ st_chg x = n * m + amps_changed a ops.
Proof.
  intros W RO Ha Hm. assert (Hn : 0 < n) by apply (wp_pos s n m W).
  assert (Hp : 0 < n * m) by (apply Nat.mul_pos_pos; auto).
  assert (P : Forall (call_ok s n m) ops -> exists d, session s true a ops = Ok d /\
    cnt d = Some (1 + changes a ops, n * m + amps_changed a ops, n + slots_changed a ops)).
  { induction ops as [|o ops IH] using rev_ind; intros F.
    - destruct (session_ok s n m W RO true a [] Ha (Forall_nil _)) as (d & E & _). exists d; split; auto.
      unfold session in E. apply bind_inv in E as (d0 & E & R). cbn [run] in R. injection R as <-.
      rewrite (initialize_counts s n m a d0 Ha Hp E). cbn [changes slots_changed amps_changed]. rewrite !Nat.add_0_r. reflexivity.
    - apply Forall_app in F as [F Fo]. pose proof (Forall_inv Fo) as Ho. destruct (IH F) as (d & E & K).
      destruct (session_ok s n m W RO true a (ops ++ [o]) Ha) as (d' & E' & _); [apply Forall_app; auto|].
      exists d'. split; auto. rewrite session_snoc, E in E'. cbn [bind] in E'.
      rewrite changes_snoc, slots_snoc, amps_snoc.
      destruct (session_ok s n m W RO true a ops Ha F) as (d1 & E1 & (dr & c & _ & _ & _ & _ & I) & _).
      rewrite E in E1. injection E1 as <-.
      assert (Am : d_amps d = Some (latest a ops)) by (apply (inv_amps _ _ _ _ _ _ _ I)).
      assert (Sh : shape n m (latest a ops)) by (apply (inv_shape _ _ _ _ _ _ _ I)).
      destruct o as [b| | | | | | | | | | ];
        [|refine (eq_trans (step_same _ d d' _ E') _); [discriminate|]; rewrite K; cbn [changes slots_changed amps_changed]; rewrite !Nat.add_0_r; reflexivity ..].
      cbn [step] in E'. cbn [changes slots_changed amps_changed]. rewrite !Nat.add_0_r.
      destruct (update_exact d n m _ b Am Sh Ho) as (d2 & E2 & _ & U1 & U2). rewrite E' in E2. injection E2 as <-.
      destruct (list_eq_dec (list_eq_dec Req_EM_T) (latest a ops) b) as [Eq|Ne].
      + rewrite (U1 Eq), K. rewrite <- Eq. unfold diff_entries, diff_rows. rewrite !differs_same, !Nat.add_0_r. reflexivity.
      + destruct (U2 Ne) as (_ & _ & _ & _ & U). unfold cnt in *. destruct (d_stats d) as [x|]; [|discriminate].
        rewrite (U x eq_refl). cbn in *. injection K as K1 K2 K3. rewrite K1, K2, K3.
        apply (f_equal Some). apply (f_equal2 pair); [apply (f_equal2 pair)|]; lia. }
  intros F. destruct (P F) as (d & E & K). unfold cnt in K. destruct (d_stats d) as [x|] eqn:X; [|discriminate].
  injection K as K1 K2 K3. exists d, x. splits; auto.
Qed.
