(** What an interrupted call leaves behind. *)
From Coq Require Import Reals Lra.
From Coquelicot Require Import Complex.
From RecordUpdate Require Import RecordUpdate.
From Verif.Model Require Import Base Dyn Fault.
From Verif.Lib Require Import Lists.
From Verif.Spec Require Import Evolution History Faults.
From Verif.Proofs Require Import DynInv DynRun DynHist DynHistory DynProps FaultSim FaultNorm.
Local Open Scope nat_scope.
Set Bullet Behavior "Strict Subproofs".

(** *** Assertions about computations: [P] before, [Q] after, [E] when it does
    not get to the end. *)
Section Hoare.
Context {A : Alg}.
Notation dyn := (dyn A).

Definition h {X} (P E : dyn -> Prop) (m : @M A X) (Q : X -> dyn -> Prop) : Prop :=
  forall b d, P d -> match m b d with
                     | (d', Done x _) => Q x d'
                     | (d', _) => E d'
                     end.

Lemma h_ret {X} (P E : dyn -> Prop) (x : X) (Q : X -> dyn -> Prop) : (forall d, P d -> Q x d) -> h P E (mret x) Q.
Proof. intros H b d Hd; cbn; auto. Qed.

Lemma h_st {X} (P E : dyn -> Prop) (f : dyn -> Res (dyn * X)) (Q : X -> dyn -> Prop) :
  (forall d, P d -> E d) -> (forall d d' x, P d -> f d = Ok (d', x) -> Q x d') -> h P E (statement f) Q.
Proof.
  intros HE HQ b d Hd. unfold statement. destruct b as [[|k]|]; auto.
  - destruct (f d) as [[d' x]|e] eqn:Ef; cbn; eauto.
  - destruct (f d) as [[d' x]|e] eqn:Ef; cbn; eauto.
Qed.
Lemma h_reads {X} (P E : dyn -> Prop) (f : dyn -> Res X) (Q : X -> dyn -> Prop) :
  (forall d, P d -> E d) -> (forall d x, P d -> f d = Ok x -> Q x d) -> h P E (reads f) Q.
Proof.
  intros HE HQ. apply h_st; auto. intros d d' x Hd Ef. destruct (f d) eqn:E'; try discriminate.
  injection Ef as <- <-. auto.
Qed.
Lemma h_writes (P E : dyn -> Prop) f (Q : unit -> dyn -> Prop) :
  (forall d, P d -> E d) -> (forall d d', P d -> f d = Ok d' -> Q tt d') -> h P E (writes f) Q.
Proof.
  intros HE HQ. apply h_st; auto. intros d d' [] Hd Ef. destruct (f d) as [d1|] eqn:E'; try discriminate.
  injection Ef as <-. eauto.
Qed.
Lemma h_assign (P E : dyn -> Prop) f (Q : unit -> dyn -> Prop) :
  (forall d, P d -> E d) -> (forall d, P d -> Q tt (f d)) -> h P E (assign f) Q.
Proof. intros HE HQ. apply h_writes; auto. intros d d' Hd Ef. injection Ef as <-. auto. Qed.

Lemma h_bind {X Y} (P E : dyn -> Prop) (m : M X) (k : X -> M Y) R Q :
  h P E m R -> (forall x, h (R x) E (k x) Q) -> h P E (mbind m k) Q.
Proof.
  intros H1 H2 b d Hd. unfold mbind. specialize (H1 b d Hd). destruct (m b d) as [d' [x b'|e|]]; auto.
  apply H2; auto.
Qed.
Lemma h_for {X} (I E : dyn -> Prop) l (body : nat -> X -> M X) :
  (forall k x, In k l -> h I E (body k x) (fun _ => I)) -> forall x, h I E (mfor l body x) (fun _ => I).
Proof.
  induction l as [|k l IH]; intros H x; cbn [mfor]; [apply h_ret; auto|].
  eapply h_bind; [apply H; now left|]. intros y. apply IH. intros; apply H; now right.
Qed.
Lemma h_loop (I E : dyn -> Prop) l (body : nat -> M unit) :
  (forall k, In k l -> h I E (body k) (fun _ => I)) -> h I E (mloop l body) (fun _ => I).
Proof. intros H. apply h_for. auto. Qed.
(** A fact that does not depend on the state. *)
Lemma h_const {X} (P E : dyn -> Prop) (m : M X) (F : Prop) (Q : X -> dyn -> Prop) :
  (F -> h P E m Q) -> h (fun d => P d /\ F) E m Q.
Proof. intros H b d (Hd & HF). now apply H. Qed.
Lemma h_imp {X} (P P' E E' : dyn -> Prop) (m : M X) (Q Q' : X -> dyn -> Prop) : h P E m Q ->
  (forall d, P' d -> P d) -> (forall d, E d -> E' d) -> (forall x d, Q x d -> Q' x d) -> h P' E' m Q'.
Proof.
  intros H HP HE HQ b d Hd. specialize (H b d (HP d Hd)). destruct (m b d) as [d' [x b'|e|]]; auto.
Qed.
(** The end is known from [Model/Dyn.v]. *)
Lemma h_end {X} (P E : dyn -> Prop) (m : M X) (R Q : X -> dyn -> Prop) : fair m -> h P E m R ->
  (forall d d' x, P d -> whole m d = Ok (d', x) -> R x d' -> Q x d') -> h P E m Q.
Proof.
  intros F H HQ b d Hd. specialize (H b d Hd). destruct (m b d) as [d' [x b'|e|]] eqn:Em; auto.
  apply (HQ d); auto. eapply fair_done; eauto.
Qed.
End Hoare.

Ltac hw := first [apply h_writes | apply h_assign | apply h_reads].

Section Cut.
Context {A : Alg} (s : settings A) (n m : nat) (dr : drift A) (c : ctrls A).
Notation Op := (Op A).
Notation dyn := (dyn A).
Notation s' := (settled s).

Hypothesis Htau : length (s_tau s) = n.
Hypothesis Hpos : 0 < n.
Hypothesis Hdr : eff_drift s = Some dr.
Hypothesis Hdrf : drift_fits n dr.
Hypothesis Hc : eff_ctrls s = Some c.
Hypothesis Hcf : ctrls_fit n m c.
Hypothesis Hm : s_cache_pg s = true -> 0 < m.
Hypothesis Hdiagc : s_prop s = Diag -> s_class s = Unitary.
Hypothesis Hfr : s_prop s = Frechet -> forall a k j t g cj, slot_at s n m a k j t g cj -> frechet_expm s t g cj.
Hypothesis Haug : s_prop s = AugMat -> forall a k j t g cj, slot_at s n m a k j t g cj -> aug_expm s t g cj.
Hypothesis Hdiag : s_prop s = Diag -> forall a k t g,
  shape n m a -> nth_error (s_tau s) k = Some t -> nth_error (gens_of s a) k = Some g ->
  diag_expm s t g.

Notation Static := (Static s n m dr c).
Notation Inv := (Inv s n m dr c).
Notation xgrad := (xgrad s).

(** The remembered results, apart from the norm. *)
Record FidOk (a : amps) (f : fidst) : Prop := {
  fo_pre : f_pre_cur f = true -> f_prenorm f = Some (overlap s a);
  fo_fid : s_fid s = FUnit -> f_fid_cur f = true -> f_fidelity f = Some (fidelity_of s a);
  fo_err : s_fid s = FTrace -> f_fid_cur f = true -> f_fid_err f = Some (trace_dist s a);
  fo_grad : f_grad_cur f = true -> s_prop s <> Approx /\ exists g, f_grad f = Some g /\ grad_is xgrad s a g;
}.

(** The invariant of [DynHist], whatever the stored norm of the gradient. *)
Definition Inv0 (a : amps) (d : dyn) : Prop := exists x, Inv a (sg x d).

(** Being recomputed: the shapes are there, the evolution is not current. *)
Record Pend (a : amps) (d : dyn) : Prop := {
  pd_st : Static d;
  pd_shape : shape n m a;
  pd_amps : d_amps d = Some a;
  pd_cur : d_evo_cur d = false;
  pd_fid : FidOk a (d_fidst d);
}.

Lemma static_sg x d : Static (sg x d) <-> Static d.
Proof. split; intros []; constructor; auto. Qed.

Lemma Inv0_shape a d : Inv0 a d -> shape n m a. Proof. intros (x & I); apply I. Qed.
Lemma Inv0_amps a d : Inv0 a d -> d_amps d = Some a. Proof. intros (x & I); apply I. Qed.
Lemma Inv0_st a d : Inv0 a d -> Static d. Proof. intros (x & I); apply (static_sg x), I. Qed.
Lemma Inv0_fid a d : Inv0 a d -> FidOk a (d_fidst d).
Proof.
  intros (x & []). constructor; auto. intros G. destruct (inv_grad G) as (Q & g & Q1 & _ & Q3). eauto.
Qed.
Lemma Inv0_pend a d : Inv0 a d -> d_evo_cur d = false -> Pend a d.
Proof.
  intros I E. constructor; auto; [eapply Inv0_st|eapply Inv0_shape|eapply Inv0_amps|eapply Inv0_fid]; eauto.
Qed.
Lemma pend_Inv0 a d : Pend a d -> Inv0 a d.
Proof.
  intros []. exists (match f_grad (d_fidst d) with Some g => norm2 g | None => 0%R end).
  destruct pd_fid0. constructor; auto; try (cbn; congruence).
  - now apply static_sg.
  - cbn. intros G. destruct (fo_grad0 G) as (Q & g & Q1 & Q2). split; auto. exists g; splits; auto. now rewrite Q1.
Qed.
Lemma Inv_Inv0 a d : Inv a d -> Inv0 a d.
Proof. intros I. exists (f_gradnorm (d_fidst d)). now rewrite sg_own. Qed.

(** *** Statements of a recomputation keep the shapes *)
Lemma pend_same a d d' : Pend a d -> (Static d -> Static d') -> d_amps d' = d_amps d ->
  d_evo_cur d' = d_evo_cur d -> d_fidst d' = d_fidst d -> Pend a d'.
Proof. intros [] HS E1 E2 E3. constructor; auto; try congruence; now rewrite ?E1, ?E2, ?E3. Qed.

Lemma pend_stats a d f : Pend a d ->
  Pend a (match d_stats d with Some st => d <| d_stats := Some (f st) |> | None => d end).
Proof.
  intros P. destruct (d_stats d); auto. eapply pend_same; eauto; intros []; constructor; auto.
Qed.

Ltac keep := eapply pend_same; [eassumption| |reflexivity..]; intros []; constructor; cbn; auto; rewrite ?upd_length; auto.

Variable a : amps.
Notation Pa := (Pend a).

Lemma h_combine k : h Pa Pa (m_combine_dyn_gen k) (fun _ => Pa).
Proof.
  unfold m_combine_dyn_gen. eapply h_bind; [apply h_reads with (Q := fun _ => Pa); auto|]. intros dg.
  eapply h_bind; [apply h_writes with (Q := fun _ => Pa); auto|].
  { intros d d' P E. destruct (set (d_dg d) k (Some dg)) as [l|] eqn:El; try discriminate.
    injection E as <-. destruct (set_inv _ _ _ _ El) as (_ & ->). keep. }
  intros ? . eapply h_bind; [apply h_reads with (Q := fun ph d => Pa d /\ ph = s_cache_ph (d_set d))|].
  { auto. } { intros d y P E. injection E as <-. auto. }
  intros [].
  - apply h_writes; [intros d (P & _); auto|]. intros d d' (P & Q) E.
    destruct (d_pdg d) as [pl|] eqn:Ep; try discriminate. cbn [some_or bind] in E.
    destruct (set pl k _) as [l|] eqn:El; try discriminate. injection E as <-.
    destruct (set_inv _ _ _ _ El) as (_ & ->).
    eapply pend_same; [eassumption| |reflexivity..]. intros St. pose proof (st_set _ _ _ _ _ _ St) as Es.
    rewrite Es in Q. destruct St; constructor; cbn; auto.
    rewrite <- Q. rewrite <- Q in st_pdg. destruct st_pdg as (l0 & E0 & L0). rewrite Ep in E0; injection E0 as <-.
    eexists; split; [reflexivity|]. now rewrite upd_length.
  - apply h_ret. intros d (P & _); auto.
Qed.

Lemma h_spectral k : h Pa Pa (m_spectral_decomp k) (fun _ => Pa).
Proof.
  unfold m_spectral_decomp. eapply h_bind; [apply h_reads with (Q := fun _ => Pa); auto|].
  intros [[[lam V] tau] prec].
  eapply h_bind; [apply h_writes with (Q := fun _ => Pa); auto|].
  { intros d d' P E. destruct (d_dcur d) as [cur|] eqn:Ec; try discriminate; cbn [some_or bind] in E.
    destruct (set cur k true) as [l|] eqn:El; try discriminate. injection E as <-.
    destruct (set_inv _ _ _ _ El) as (_ & ->). keep.
    - intros l0 E0; injection E0 as <-. rewrite upd_length. auto.
    - intros HD; destruct (st_dlists HD) as (_ & Q); split; auto. discriminate. }
  intros ? . eapply h_bind; [apply h_writes with (Q := fun _ => Pa); auto|].
  { intros d d' P E. destruct (set (d_fac d) k _) as [l|] eqn:El; try discriminate. injection E as <-.
    destruct (set_inv _ _ _ _ El) as (_ & ->). keep. }
  intros ? . eapply h_bind; [apply h_writes with (Q := fun _ => Pa); auto|].
  { intros d d' P E. destruct (set (d_peig d) k _) as [l|] eqn:El; try discriminate. injection E as <-.
    destruct (set_inv _ _ _ _ El) as (_ & ->). keep. }
  intros ? . eapply h_bind; [apply h_writes with (Q := fun _ => Pa); auto|].
  { intros d d' P E. destruct (set (d_evec d) k _) as [l|] eqn:El; try discriminate. injection E as <-.
    destruct (set_inv _ _ _ _ El) as (_ & ->). keep. }
  intros ? . apply h_writes; auto. intros d d' P E. destruct (d_eadj d) as [l|] eqn:Ea.
  - destruct (set l k _) as [l'|] eqn:El; try discriminate. injection E as <-.
    destruct (set_inv _ _ _ _ El) as (_ & ->). keep.
    intros HD l0 E0; injection E0 as <-. rewrite upd_length. auto.
  - injection E as <-; auto.
Qed.

Lemma h_ensure k : h Pa Pa (m_ensure_decomp_curr k) (fun _ => Pa).
Proof.
  unfold m_ensure_decomp_curr. eapply h_bind; [apply h_reads with (Q := fun _ => Pa); auto|].
  intros []; [apply h_ret; auto|apply h_spectral].
Qed.

Lemma h_propagator k : h Pa Pa (m_compute_propagator k) (fun _ => Pa).
Proof.
  unfold m_compute_propagator, kind_of. eapply h_bind; [apply h_reads with (Q := fun _ => Pa); auto|].
  intros []; try (apply h_reads; auto). eapply h_bind; [apply h_ensure|]. intros ? . apply h_reads; auto.
Qed.

Lemma h_prop_grad k j : h Pa Pa (m_compute_prop_grad k j) (fun _ => Pa).
Proof.
  unfold m_compute_prop_grad, kind_of. eapply h_bind; [apply h_reads with (Q := fun _ => Pa); auto|].
  intros []; try (apply h_reads; auto). eapply h_bind; [apply h_ensure|]. intros ? .
  eapply h_bind; [apply h_propagator|]. intros p. apply h_reads; auto.
Qed.

Lemma h_step_gen k : h Pa Pa (m_step_dyn_gen k) (fun _ => Pa).
Proof.
  unfold m_step_dyn_gen. eapply h_bind; [apply h_combine|]. intros ? . apply h_writes; auto.
  intros d d' P E. destruct (d_dcur d) as [cur|] eqn:Ec.
  - destruct (set cur k false) as [l|] eqn:El; try discriminate. injection E as <-.
    destruct (set_inv _ _ _ _ El) as (_ & ->). keep.
    + intros l0 E0; injection E0 as <-. rewrite upd_length. auto.
    + intros HD; destruct (st_dlists HD) as (_ & Q); split; auto. discriminate.
  - injection E as <-; auto.
Qed.

Lemma h_write_prop k p : h Pa Pa (write_prop k p) (fun _ => Pa).
Proof.
  unfold write_prop. apply h_writes; auto.
  intros d d' P E. destruct (set (d_prop d) k _) as [l|] eqn:El; try discriminate. injection E as <-.
  destruct (set_inv _ _ _ _ El) as (_ & ->). keep.
Qed.

Lemma h_set_pg k j g : h Pa Pa (writes (fun d => set_pg d k j g)) (fun _ => Pa).
Proof.
  apply h_writes; auto. intros d d' P E. unfold set_pg in E.
  destruct (d_pg d) as [pg|] eqn:Ep; try discriminate; cbn [some_or bind] in E.
  destruct (get pg k) as [row|] eqn:Er; try discriminate; cbn [bind] in E.
  destruct (set row j (Some g)) as [row'|] eqn:Er'; try discriminate; cbn [bind] in E.
  destruct (set pg k row') as [pg'|] eqn:Eg; try discriminate. injection E as <-.
  destruct (set_inv _ _ _ _ Er') as (_ & ->). destruct (set_inv _ _ _ _ Eg) as (_ & ->).
  eapply pend_same; [eassumption| |reflexivity..]. intros []; constructor; cbn; auto.
  intros HE. destruct (st_pg HE) as (pg0 & E0 & L0 & F0). rewrite Ep in E0; injection E0 as <-.
  eexists; splits; [reflexivity|now rewrite upd_length|]. apply Forall_upd; auto. rewrite upd_length.
  unfold get in Er. destruct (nth_error pg k) as [r|] eqn:En; try discriminate. injection Er as ->.
  rewrite Forall_forall in F0. apply F0. eapply nth_error_In; eauto.
Qed.

Lemma h_step_prop nc k : h Pa Pa (m_step_prop nc k) (fun _ => Pa).
Proof.
  unfold m_step_prop. eapply h_bind; [apply h_reads with (Q := fun _ => Pa); auto|].
  intros [].
  - apply h_loop. intros j _. eapply h_bind; [apply h_prop_grad|]. intros [p g].
    eapply h_bind; [|intros ?; apply h_set_pg]. destruct (j =? 0); [apply h_write_prop|apply h_ret; auto].
  - eapply h_bind; [apply h_propagator|]. intros p. apply h_write_prop.
Qed.

Lemma h_fwd k : h Pa Pa (writes (step_fwd k)) (fun _ => Pa).
Proof.
  apply h_writes; auto. intros d d' P E. unfold step_fwd in E.
  destruct (getf (d_prop d) k); try discriminate; cbn [bind] in E.
  destruct (getf (d_fwd d) k); try discriminate; cbn [bind] in E.
  destruct (set (d_fwd d) (k + 1) _) as [l|] eqn:El; try discriminate. injection E as <-.
  destruct (set_inv _ _ _ _ El) as (_ & ->).
  eapply pend_same; [eassumption| |reflexivity..]. intros []; constructor; auto.
  - cbn; now rewrite upd_length.
  - destruct (d_fwd d), k; cbn in *; auto.
Qed.

Lemma onwd_keep d l l' : Pa d -> d_onwd d = Some l -> length l' = length l -> Pa (d <| d_onwd := Some l' |>).
Proof.
  intros P El L. eapply pend_same; [eassumption| |reflexivity..]. intros []; constructor; cbn; auto.
  intros HF. destruct (st_onwd HF) as (l0 & E0 & L0). exists l'; split; auto. congruence.
Qed.

Lemma h_onwd k : h Pa Pa (writes (step_onwd k)) (fun _ => Pa).
Proof.
  apply h_writes; auto. intros d d' P E. unfold step_onwd in E.
  destruct (d_onwd d) as [ow|] eqn:Eo; try discriminate; cbn [some_or bind] in E.
  destruct (getf ow (k + 1)); try discriminate; cbn [bind] in E.
  destruct (getf (d_prop d) k); try discriminate; cbn [bind] in E.
  destruct (set ow k _) as [l|] eqn:El; try discriminate. injection E as <-.
  destruct (set_inv _ _ _ _ El) as (_ & ->). eapply onwd_keep; eauto. apply upd_length.
Qed.

Lemma h_onto k : k < n -> h Pa Pa (writes (step_onto k)) (fun _ => Pa).
Proof.
  intros Hk. apply h_writes; auto. intros d d' P E. unfold step_onto in E.
  destruct (d_onto d) as [ow|] eqn:Eo; try discriminate; cbn [some_or bind] in E.
  destruct (getf ow (k + 1)); try discriminate; cbn [bind] in E.
  destruct (getf (d_prop d) k); try discriminate; cbn [bind] in E.
  destruct (set ow k _) as [l|] eqn:El; try discriminate. injection E as <-.
  destruct (set_inv _ _ _ _ El) as (_ & ->).
  eapply pend_same; [eassumption| |reflexivity..]. intros []; constructor; cbn; auto.
  intros HF. destruct (st_onto HF) as (l0 & E0 & L0 & N0). rewrite Eo in E0; injection E0 as <-.
  eexists; splits; [reflexivity|now rewrite upd_length|]. rewrite nth_upd_neq by lia. auto.
Qed.

Lemma num_same d : Static d -> shape n m a -> get_num_ctrls d = Ok (d, m).
Proof. intros St Ha. eapply num_ctrls_ok; eauto. Qed.

Lemma in_down k p : In k (range_down p) -> k < p.
Proof. unfold range_down. rewrite <- in_rev, in_seq. lia. Qed.

Lemma h_stats f : h Pa Pa (with_stats f) (fun _ => Pa).
Proof. apply h_assign; auto. intros d P. now apply pend_stats. Qed.

Lemma h_recompute : h Pa Pa m_recompute_evolution (fun _ => Pa).
Proof.
  unfold m_recompute_evolution.
  eapply h_bind; [apply h_st with (Q := fun x d => Pa d /\ fst x = n)|]; auto.
  { intros d d' x P E. rewrite (num_same d (pd_st _ _ P) (pd_shape _ _ P)) in E. cbn [bind] in E.
    injection E as <- <-. split; auto. cbn. unfold n_ts. rewrite (st_set _ _ _ _ _ _ (pd_st _ _ P)), settled_tau. auto. }
  intros [n0 nc]; cbn [fst]. apply h_const. intros ->.
  do 6 (eapply h_bind; [apply h_assign with (Q := fun _ => Pa); auto; intros d P; keep|intros ? ]).
  eapply h_bind; [apply h_stats|intros ? ].
  eapply h_bind; [apply h_loop; intros; apply h_step_gen|intros ? ].
  eapply h_bind; [apply h_loop; intros; apply h_step_prop|intros ? ].
  eapply h_bind; [apply h_loop; intros; apply h_fwd|intros ? ].
  eapply h_bind; [apply h_reads with (Q := fun _ => Pa); auto|intros fk].
  eapply h_bind; [|intros ? ].
  - instantiate (1 := fun _ => Pa). destruct (uses_onwd fk); [|apply h_ret; auto].
    eapply h_bind; [|intros ?; apply h_loop; intros; apply h_onwd].
    apply h_writes; auto. intros d d' P E.
    destruct (get (d_prop d) (n - 1)); try discriminate; cbn [bind] in E.
    destruct (d_onwd d) as [ow|] eqn:Eo; try discriminate; cbn [some_or bind] in E.
    destruct (set ow (n - 1) _) as [l|] eqn:El; try discriminate. injection E as <-.
    destruct (set_inv _ _ _ _ El) as (_ & ->). eapply onwd_keep; eauto. apply upd_length.
  - eapply h_bind; [apply h_reads with (Q := fun _ => Pa); auto|intros fk'].
    destruct (uses_onto fk'); [|apply h_ret; auto].
    apply h_loop. intros k Hk. apply h_onto. now apply in_down.
Qed.

(** *** Evolution *)
Notation Ia := (Inv0 a).
Definition J (d : dyn) : Prop := Ia d /\ d_evo_cur d = true.

Lemma J_Ia d : J d -> Ia d. Proof. intros (? & _); auto. Qed.

Lemma evo_end d d' b : Ia d -> compute_evolution d = Ok (d', b) -> J d' /\ d_fidst d' = d_fidst d.
Proof.
  intros (x & I) E.
  destruct (evo_ok s n m dr c Htau Hpos Hdr Hdrf Hc Hcf Hm Hdiagc Hfr Haug Hdiag a _ I) as (d1 & b1 & E1 & I1 & C1 & F1 & _).
  rewrite cmv_evo, E in E1. cbn [bind] in E1. injection E1 as <- <-. split; [split; auto; now exists x|].
  unfold compute_evolution in E. destruct (d_evo_cur d); [now injection E as <- <-|].
  destruct (recompute_evolution d) as [d2|] eqn:Er; try discriminate. injection E as <- <-.
  destruct (recompute_ok s n m dr c Htau Hpos Hdr Hdrf Hc Hcf Hm Hdiagc Hfr Haug Hdiag a
                (inv_shape _ _ _ _ _ _ _ I) d (proj1 (static_sg x d) (inv_st _ _ _ _ _ _ _ I)) (inv_amps _ _ _ _ _ _ _ I))
      as (d3 & E3 & _ & _ & _ & _ & Q & _). rewrite Er in E3; injection E3 as <-. exact Q.
Qed.

(** [N]: something about the remembered results that has to survive. *)
Lemma h_evolution (N : fidst -> Prop) : h (fun d => Ia d /\ N (d_fidst d)) Ia m_compute_evolution (fun _ d => J d /\ N (d_fidst d)).
Proof.
  eapply h_end with (R := fun _ _ => True); [apply fair_evolution| |].
  - unfold m_compute_evolution.
    eapply h_bind; [apply h_reads with (Q := fun b d => Ia d /\ d_evo_cur d = b)|].
    + intros d (I & _); auto.
    + intros d y (I & _) E. injection E as <-; auto.
    + intros [].
      * apply h_ret; auto.
      * eapply h_bind; [eapply h_imp; [apply h_recompute|..]|].
        -- intros d (I & E). now apply Inv0_pend.
        -- intros d; apply pend_Inv0.
        -- intros ? d P; exact P.
        -- intros ? . cbv beta. eapply h_bind; [apply h_assign with (Q := fun _ _ => True); auto; intros d; apply pend_Inv0|].
           intros ? . apply h_ret; auto.
  - intros d d' b (I & Hn) E _. rewrite whole_evolution in E. destruct (evo_end d d' b I E) as (? & Eq).
    split; auto. now rewrite Eq.
Qed.

(** Changing remembered results. *)
Lemma Ia_fid d f st : Ia d -> f_dimnorm f = f_dimnorm (d_fidst d) -> FidOk a f ->
  Ia (d <| d_fidst := f |> <| d_stats := st |>).
Proof.
  intros (x & I) E [].
  exists (match f_grad f with Some g => norm2 g | None => 0%R end).
  set (f' := f <| f_gradnorm := match f_grad f with Some g => norm2 g | None => 0%R end |>).
  change (Inv a (sg x d <| d_fidst := f' |> <| d_stats := st |>)).
  apply Inv_fid'; auto. cbn. intros G. destruct (fo_grad0 G) as (Q & g & Q1 & Q2). split; auto. exists g; splits; auto.
  now rewrite Q1.
Qed.
Lemma Ia_stats d f : Ia d ->
  Ia (match d_stats d with Some st => d <| d_stats := Some (f st) |> | None => d end).
Proof.
  intros I. destruct (d_stats d) as [st|]; auto.
  replace (d <| d_stats := Some (f st) |>) with (d <| d_fidst := d_fidst d |> <| d_stats := Some (f st) |>)
    by (destruct d; reflexivity).
  apply Ia_fid; auto. now apply Inv0_fid.
Qed.
Lemma Ia_fid1 d f : Ia d -> f_dimnorm f = f_dimnorm (d_fidst d) -> FidOk a f -> Ia (d <| d_fidst := f |>).
Proof.
  intros I E F. replace (d <| d_fidst := f |>) with (d <| d_fidst := f |> <| d_stats := d_stats d |>) by (destruct d; reflexivity).
  now apply Ia_fid.
Qed.
Lemma h_Istats (N : dyn -> Prop) f :
  (forall d, N d -> N (match d_stats d with Some st => d <| d_stats := Some (f st) |> | None => d end)) ->
  h (fun d => Ia d /\ N d) Ia (with_stats f) (fun _ d => Ia d /\ N d).
Proof. intros H. apply h_assign; [intros d (? & _); auto|]. intros d (I & Hd). split; auto. now apply Ia_stats. Qed.

(** *** Fidelity *)
Lemma prenorm_read d f : s_fid s = FUnit -> J d ->
  (ot <- some_or TypeError (d_onto d);; x <- getf ot n;; y <- getf (d_fwd d) n;; Ok (otr A (omul A x y))) = Ok f ->
  f = overlap s a.
Proof.
  intros HF ((x & I) & C). change (d_onto d) with (d_onto (sg x d)). change (d_fwd d) with (d_fwd (sg x d)).
  change (d_evo_cur (sg x d) = true) in C. generalize dependent (sg x d). clear d. intros d I C.
  pose proof (inv_cur _ _ _ _ _ _ _ I C) as Cu.
  destruct (cur_onto _ _ _ _ _ _ Cu HF n (le_n _)) as (l & El & En).
  rewrite El; cbn [some_or bind]. rewrite (getf_ok _ _ _ En); cbn [bind].
  rewrite (getf_ok _ _ _ (fwd_last s n m dr c Htau Hpos Hdr Hdrf Hc Hcf Hm Hdiagc Hfr Haug Hdiag a d (inv_shape _ _ _ _ _ _ _ I) Cu)); cbn [bind].
  rewrite skipn_all2 by (rewrite (props_length s n m dr c); auto; apply I).
  cbn [devolve fold_right]. fold (overlap s a). congruence.
Qed.

Lemma fidok_pre f v : FidOk a f -> f_pre_cur f = false -> FidOk a (f <| f_prenorm := v |>).
Proof. intros [] E. constructor; cbn; auto. congruence. Qed.
Lemma fidok_precur f : FidOk a f -> f_prenorm f = Some (overlap s a) -> FidOk a (f <| f_pre_cur := true |>).
Proof. intros [] E. constructor; cbn; auto. Qed.
Lemma fidok_fid f v : FidOk a f -> f_fid_cur f = false -> FidOk a (f <| f_fidelity := v |>).
Proof. intros [] E. constructor; cbn; auto. congruence. Qed.
Lemma fidok_err f v : FidOk a f -> f_fid_cur f = false -> FidOk a (f <| f_fid_err := v |>).
Proof. intros [] E. constructor; cbn; auto. congruence. Qed.
Lemma fidok_fidcur f : FidOk a f -> (s_fid s = FUnit -> f_fidelity f = Some (fidelity_of s a)) ->
  (s_fid s = FTrace -> f_fid_err f = Some (trace_dist s a)) -> FidOk a (f <| f_fid_cur := true |>).
Proof. intros [] E1 E2. constructor; cbn; auto. Qed.
Lemma fidok_grad f v : FidOk a f -> f_grad_cur f = false -> FidOk a (f <| f_grad := v |>).
Proof. intros [] E. constructor; cbn; auto. congruence. Qed.
Lemma fidok_gradcur f g : FidOk a f -> s_prop s <> Approx -> f_grad f = Some g -> grad_is xgrad s a g ->
  FidOk a (f <| f_grad_cur := true |>).
Proof. intros [] E1 E2 E3. constructor; cbn; auto. intros _. eauto. Qed.

Lemma h_prenorm (N : fidst -> Prop) : s_fid s = FUnit ->
  (forall f v, N f -> N (f <| f_prenorm := v |>)) -> (forall f, N f -> N (f <| f_pre_cur := true |>)) ->
  h (fun d => Ia d /\ N (d_fidst d)) Ia m_get_fidelity_prenorm (fun v d => (Ia d /\ N (d_fidst d)) /\ v = overlap s a).
Proof.
  intros HF N1 N2. unfold m_get_fidelity_prenorm.
  eapply h_bind; [apply h_reads with (Q := fun b d => (Ia d /\ N (d_fidst d)) /\ f_pre_cur (d_fidst d) = b)|].
  { intros d (I & _); auto. } { intros d y I E. injection E as <-; auto. }
  intros [].
  - apply h_reads; [intros d ((I & _) & _); auto|]. intros d y ((I & Hn) & E) Ev. splits; auto.
    rewrite (fo_pre _ _ (Inv0_fid _ _ I) E) in Ev. now injection Ev.
  - eapply h_bind; [apply h_reads with (Q := fun k d => (Ia d /\ N (d_fidst d) /\ f_pre_cur (d_fidst d) = false) /\ k = n)|].
    { intros d ((I & _) & _); auto. }
    { intros d y ((I & Hn) & E) Ev. injection Ev as <-. splits; auto. eapply n_ts_eq; eauto. eapply Inv0_st; eauto. }
    intros k. apply h_const. intros ->.
    eapply h_bind; [apply (h_evolution (fun f => N f /\ f_pre_cur f = false))|]. intros ? . cbv beta.
    eapply h_bind; [apply h_reads with (Q := fun f d => (J d /\ N (d_fidst d) /\ f_pre_cur (d_fidst d) = false) /\ f = overlap s a)|].
    { intros d ((I & _) & _); auto. }
    { intros d y (Hj & Hn) E. splits; auto; try apply Hn. eapply prenorm_read; eauto. }
    intros f. apply h_const. intros ->.
    eapply h_bind; [apply h_assign with (Q := fun _ d => Ia d /\ N (d_fidst d) /\ f_prenorm (d_fidst d) = Some (overlap s a))|].
    { intros d ((I & _) & _); auto. }
    { intros d ((I & _) & Hn & E). splits; cbn; auto.
      apply Ia_fid1; auto. apply fidok_pre; auto. now apply Inv0_fid. }
    intros ? . eapply h_bind; [apply h_assign with (Q := fun _ d => Ia d /\ N (d_fidst d))|].
    { intros d (I & _); auto. }
    { intros d (I & Hn & E). splits; cbn; auto.
      apply Ia_fid1; auto. apply fidok_precur; auto. now apply Inv0_fid. }
    intros ? . eapply h_bind; [apply (h_Istats (fun d => N (d_fidst d))); intros d; destruct (d_stats d); auto|].
    intros ? . apply h_ret. auto.
Qed.

Lemma h_fidelity (N : fidst -> Prop) : s_fid s = FUnit ->
  (forall f v, N f -> N (f <| f_prenorm := v |>)) -> (forall f, N f -> N (f <| f_pre_cur := true |>)) ->
  (forall f v, N f -> N (f <| f_fidelity := v |>)) -> (forall f, N f -> N (f <| f_fid_cur := true |>)) ->
  h (fun d => Ia d /\ N (d_fidst d)) Ia m_get_fidelity (fun v d => (Ia d /\ N (d_fidst d)) /\ v = fidelity_of s a).
Proof.
  intros HF N1 N2 N3 N4. unfold m_get_fidelity.
  eapply h_bind; [apply h_reads with (Q := fun b d => (Ia d /\ N (d_fidst d)) /\ f_fid_cur (d_fidst d) = b)|].
  { intros d (I & _); auto. }
  { intros d y (I & Hn) E. rewrite (st_set _ _ _ _ _ _ (Inv0_st _ _ I)), settled_fid, HF in E. injection E as <-; auto. }
  intros [].
  - apply h_reads; [intros d ((I & _) & _); auto|]. intros d y ((I & Hn) & E) Ev. splits; auto.
    rewrite (fo_fid _ _ (Inv0_fid _ _ I) HF E) in Ev. now injection Ev.
  - eapply h_bind; [eapply h_imp; [apply (h_prenorm (fun f => N f /\ f_fid_cur f = false))|..]|].
    { auto. } { intros f v (? & ?); auto. } { intros f (? & ?); auto. }
    { intros d ((? & ?) & ?); auto. } { auto. } { intros x d Hd; exact Hd. }
    intros f. cbv beta. apply h_const. intros ->.
    eapply h_bind; [apply h_reads with (Q := fun v d => (Ia d /\ N (d_fidst d) /\ f_fid_cur (d_fidst d) = false) /\ v = fidelity_of s a)|].
    { intros d (I & _); auto. }
    { intros d y (I & Hn) E. splits; auto; try apply Hn. injection E as <-.
      rewrite (st_set _ _ _ _ _ _ (Inv0_st _ _ I)), settled_phopt.
      rewrite (st_norm _ _ _ _ _ _ (Inv0_st _ _ I) HF).
      unfold fid_norm, fidelity_of. destruct (s_phopt s); f_equal; unfold Rdiv; rewrite Rinv_1, Rmult_1_r; auto. }
    intros v. apply h_const. intros ->.
    eapply h_bind; [apply h_assign with (Q := fun _ d => Ia d /\ N (d_fidst d) /\ f_fidelity (d_fidst d) = Some (fidelity_of s a))|].
    { intros d (I & _); auto. }
    { intros d (I & Hn & E). splits; cbn; auto.
      apply Ia_fid1; auto. apply fidok_fid; auto. now apply Inv0_fid. }
    intros ? . eapply h_bind; [apply h_assign with (Q := fun _ d => Ia d /\ N (d_fidst d))|].
    { intros d (I & _); auto. }
    { intros d (I & Hn & E). splits; cbn; auto.
      apply Ia_fid1; auto. apply fidok_fidcur; auto; [now apply Inv0_fid|congruence]. }
    intros ? . apply h_ret. auto.
Qed.

Lemma trace_read d f : s_fid s = FTrace -> J d ->
  (fin <- getf (d_fwd d) (n_ts d);; targ <- some_or TypeError (d_target d);;
   sc <- some_or TypeError (s_scale (d_set d));; Ok (trace_err sc (osub A targ fin))) = Ok f ->
  f = trace_dist s a.
Proof.
  intros HF ((x & I) & C). change (d_target d) with (d_target (sg x d)). change (d_fwd d) with (d_fwd (sg x d)).
  change (n_ts d) with (n_ts (sg x d)). change (d_set d) with (d_set (sg x d)).
  change (d_evo_cur (sg x d) = true) in C. generalize dependent (sg x d). clear d. intros d I C.
  pose proof (inv_cur _ _ _ _ _ _ _ I C) as Cu.
  rewrite (n_ts_eq s n m dr c Htau d) by apply I.
  rewrite (getf_ok _ _ _ (fwd_last s n m dr c Htau Hpos Hdr Hdrf Hc Hcf Hm Hdiagc Hfr Haug Hdiag a d (inv_shape _ _ _ _ _ _ _ I) Cu)); cbn [bind].
  rewrite (st_target _ _ _ _ _ _ (inv_st _ _ _ _ _ _ _ I)); cbn [some_or bind].
  rewrite (st_set _ _ _ _ _ _ (inv_st _ _ _ _ _ _ _ I)), (settled_scale _ HF); cbn [some_or bind].
  change (trace_err (trace_scale s) (osub A (s_target s) (final_of s a))) with (trace_dist s a). congruence.
Qed.

Lemma h_fid_err : h Ia Ia m_get_fid_err (fun v d => Ia d).
Proof.
  unfold m_get_fid_err.
  eapply h_bind; [apply h_reads with (Q := fun b d => Ia d /\ b = s_fid s)|]; auto.
  { intros d y I E. injection E as <-. split; auto. now rewrite (st_set _ _ _ _ _ _ (Inv0_st _ _ I)), settled_fid. }
  intros fk. apply h_const. intros ->. case_eq (s_fid s); intros HF.
  - eapply h_bind; [eapply h_imp; [apply (h_fidelity (fun _ => True)); auto|intros d Hd; split; [exact Hd|exact I]|auto|intros x d Hd; exact Hd]|].
    intros f. cbv beta. apply h_ret. intros d ((I & _) & _); auto.
  - eapply h_bind; [apply h_reads with (Q := fun b d => Ia d /\ f_fid_cur (d_fidst d) = b)|]; auto.
    { intros d y I E. injection E as <-; auto. }
    intros [].
    + apply h_reads; [intros d (I & _); auto|]. intros d y (I & _) _; auto.
    + eapply h_bind; [apply (h_evolution (fun f => f_fid_cur f = false))|]. intros ? . cbv beta.
      eapply h_bind; [apply h_reads with (Q := fun f d => (J d /\ f_fid_cur (d_fidst d) = false) /\ f = trace_dist s a)|].
      { intros d ((I & _) & _); auto. }
      { intros d y (Hj & Hn) E. splits; auto. eapply trace_read; eauto. }
      intros f. apply h_const. intros ->.
      eapply h_bind; [apply h_assign with (Q := fun _ d => Ia d /\ f_fid_err (d_fidst d) = Some (trace_dist s a))|].
      { intros d ((I & _) & _); auto. }
      { intros d ((I & _) & E). splits; cbn; auto.
        apply Ia_fid1; auto. apply fidok_err; auto. now apply Inv0_fid. }
      intros ? . eapply h_bind; [apply (h_Istats (fun d => f_fid_err (d_fidst d) = Some (trace_dist s a))); intros d; destruct (d_stats d); auto|].
      intros ? . eapply h_bind; [apply h_assign with (Q := fun _ d => Ia d)|].
      { intros d (I & _); auto. }
      { intros d (I & E). apply Ia_fid1; auto. apply fidok_fidcur; auto; [now apply Inv0_fid|congruence]. }
      intros ? . apply h_ret. auto.
Qed.

(** *** Gradient *)
Definition IG (d : dyn) : Prop := Ia d /\ f_grad_cur (d_fidst d) = false.
Definition JG (d : dyn) : Prop := J d /\ f_grad_cur (d_fidst d) = false.
Lemma JG_Ia d : JG d -> Ia d. Proof. intros ((? & _) & _); auto. Qed.
Lemma JG_IG d : JG d -> IG d. Proof. intros ((? & _) & ?); split; auto. Qed.
Lemma IG_Ia d : IG d -> Ia d. Proof. intros (? & _); auto. Qed.

Lemma h_J {X} (f : dyn -> Res X) : h JG Ia (reads f) (fun _ => JG).
Proof. apply h_reads; auto. apply JG_Ia. Qed.

Lemma h_ensureJ k : k < n -> s_prop s = Diag -> h JG Ia (m_ensure_decomp_curr k) (fun _ => JG).
Proof.
  intros Hk HD. unfold m_ensure_decomp_curr.
  eapply h_bind; [apply h_reads with (Q := fun b d => JG d /\ b = true)|].
  { apply JG_Ia. }
  { intros d y Hj E. split; auto. destruct Hj as (((x & I) & C) & _).
    pose proof (inv_cur _ _ _ _ _ _ _ I C) as Cu.
    destruct (slot s n m dr c Htau Hpos Hdr Hdrf Hc Hcf Hm Hdiagc Hfr Haug Hdiag a (inv_shape _ _ _ _ _ _ _ I) k Hk)
      as (d0 & row & cs & t & g & E0 & E1 & E2 & E3 & L1 & L2 & _ & Eg & Ep).
    pose proof (cur_dec _ _ _ _ _ _ Cu HD k Hk t g E3 Eg) as Hd'. destruct (oeigh A g) as [lam V].
    destruct Hd' as ((cur & Ec & Ek) & _). change (d_dcur d = Some cur) in Ec. rewrite Ec in E.
    rewrite (get_ok _ _ _ Ek) in E. now injection E. }
  intros b. apply h_const. intros ->. apply h_ret; auto.
Qed.

Lemma h_kind : h JG Ia kind_of (fun k d => JG d /\ k = s_prop s).
Proof.
  apply h_reads; [apply JG_Ia|]. intros d y Hj E. injection E as <-. split; auto.
  now rewrite (st_set _ _ _ _ _ _ (Inv0_st _ _ (JG_Ia _ Hj))), settled_prop.
Qed.

Lemma h_propagatorJ k : k < n -> h JG Ia (m_compute_propagator k) (fun _ => JG).
Proof.
  intros Hk. unfold m_compute_propagator. eapply h_bind; [apply h_kind|]. intros kd. apply h_const. intros ->.
  case_eq (s_prop s); intros HD; try apply h_J. eapply h_bind; [apply h_ensureJ; auto|]. intros ? . apply h_J.
Qed.

Lemma h_prop_gradJ k j : k < n -> h JG Ia (m_compute_prop_grad k j) (fun _ => JG).
Proof.
  intros Hk. unfold m_compute_prop_grad. eapply h_bind; [apply h_kind|]. intros kd. apply h_const. intros ->.
  case_eq (s_prop s); intros HD; try apply h_J. eapply h_bind; [apply h_ensureJ; auto|]. intros ? .
  eapply h_bind; [apply h_propagatorJ; auto|]. intros p. apply h_J.
Qed.

Lemma h_get_pgJ k j : k < n -> h JG Ia (m_get_prop_grad k j) (fun _ => JG).
Proof.
  intros Hk. unfold m_get_prop_grad. eapply h_bind; [apply h_J|]. intros [].
  - apply h_J.
  - eapply h_bind; [apply h_prop_gradJ; auto|]. intros [p g]. apply h_ret; auto.
Qed.

Lemma h_fillJ {X} p (f : nat -> nat -> M X) z : (forall k j, k < n -> h JG Ia (f k j) (fun _ => JG)) ->
  h JG Ia (m_fill_grad n p f z) (fun _ => JG).
Proof.
  intros H. unfold m_fill_grad. apply h_for. intros j g _. apply h_for. intros k g' Hk.
  eapply h_bind; [apply H; apply in_seq in Hk; lia|]. intros v. apply h_J.
Qed.

Lemma h_unitJ k j : k < n -> h JG Ia (m_unit_grad_entry k j) (fun _ => JG).
Proof.
  intros Hk. unfold m_unit_grad_entry. eapply h_bind; [apply h_J|]. intros [x y].
  eapply h_bind; [now apply h_get_pgJ|]. intros g. apply h_ret; auto.
Qed.
Lemma h_traceJ k j : k < n -> h JG Ia (m_trace_grad_entry n k j) (fun _ => JG).
Proof.
  intros Hk. unfold m_trace_grad_entry. eapply h_bind; [apply h_J|]. intros [[x y] z].
  eapply h_bind; [now apply h_get_pgJ|]. intros g. apply h_J.
Qed.

Lemma h_numI : h IG Ia (statement (fun d : dyn => '(d', nc) <- get_num_ctrls d;; Ok (d', (n_ts d', nc))))
  (fun x d => IG d /\ fst x = n).
Proof.
  apply h_st; [apply IG_Ia|]. intros d d' x (I & G) E. rewrite (num_same d (Inv0_st _ _ I) (Inv0_shape _ _ I)) in E. cbn [bind] in E.
  injection E as <- <-. split; [now split|]. cbn. eapply n_ts_eq; eauto. eapply Inv0_st; eauto.
Qed.

Lemma h_fid_grad : h IG Ia m_compute_fid_grad (fun _ => JG).
Proof.
  unfold m_compute_fid_grad. eapply h_bind; [apply h_numI|]. intros [n0 nc]; cbn [fst]. apply h_const. intros ->.
  eapply h_bind; [apply (h_evolution (fun f => f_grad_cur f = false))|].
  intros ? . eapply h_imp; [apply h_fillJ; intros; now apply h_unitJ|..]; auto.
Qed.
Lemma h_err_grad : h IG Ia m_compute_fid_err_grad (fun _ => JG).
Proof.
  unfold m_compute_fid_err_grad. eapply h_bind; [apply h_numI|]. intros [n0 nc]; cbn [fst]. apply h_const. intros ->.
  eapply h_bind; [apply (h_evolution (fun f => f_grad_cur f = false))|].
  intros ? . eapply h_imp; [apply h_fillJ; intros; now apply h_traceJ|..]; auto.
Qed.

(** The part of [get_fid_err_gradient] that computes. *)
Definition grad_calc (fk : fidkind) : @M A amps :=
  match fk with
  | FUnit =>
    gp <~ m_compute_fid_grad;;
    fid <~ m_get_fidelity;;
    pn <~ m_get_fidelity_prenorm;;
    reads (fun d : dyn =>
      Ok (map (map (fun g => (if leR 1 fid then 1 else -1) *
              grad_norm_entry (s_phopt (d_set d)) (f_dimnorm (d_fidst d)) pn g)%R) gp))
  | FTrace => m_compute_fid_err_grad
  end.

Lemma fair_calc fk : fair (grad_calc fk).
Proof.
  destruct fk; [|apply fair_err_grad].
  apply fair_bind; [apply fair_fid_grad|]. intros gp. apply fair_bind; [apply fair_fidelity|]. intros fid.
  apply fair_bind; [apply fair_prenorm|]. intros pn. apply fair_reads.
Qed.

Lemma h_calc : h IG Ia (grad_calc (s_fid s)) (fun _ => IG).
Proof.
  case_eq (s_fid s); intros HF; cbn [grad_calc].
  - eapply h_bind; [apply h_fid_grad|]. intros gp.
    eapply h_bind; [eapply h_imp; [apply (h_fidelity (fun f => f_grad_cur f = false)); auto|intros d Hd; apply JG_IG, Hd|auto|intros x d Hd; exact Hd]|].
    intros fid. cbv beta. apply h_const. intros ->.
    eapply h_bind; [apply (h_prenorm (fun f => f_grad_cur f = false)); auto|]. intros pn. cbv beta. apply h_const. intros ->.
    apply h_reads; [apply IG_Ia|auto].
  - eapply h_imp; [apply h_err_grad|..]; auto. intros x d; apply JG_IG.
Qed.

Lemma calc_gradient d d1 g : IG d -> whole (grad_calc (s_fid s)) d = Ok (d1, g) ->
  exists d2, get_fid_err_gradient d = Ok (d2, g).
Proof.
  intros (I & G) E. apply whole_none in E; [|apply fair_calc]. rewrite <- whole_gradient. unfold whole.
  assert (H : m_get_fid_err_gradient None d =
    mbind (grad_calc (s_fid s)) (fun g => 
    _ <~ assign (fun d => d <| d_fidst; f_grad := Some g |>);;
    _ <~ assign (fun d => d <| d_fidst; f_grad_cur := true |>);;
    _ <~ with_stats (fun st => st <| st_grad := S (st_grad st) |>);;
    _ <~ assign (fun d => d <| d_fidst; f_gradnorm := norm2 g |>);;
    mret g) None d).
  { unfold m_get_fid_err_gradient, mbind at 1. unfold reads at 1, statement at 1. cbn [bind]. rewrite G.
    unfold mbind at 1. unfold reads at 1, statement at 1. cbn [bind].
    rewrite (st_set _ _ _ _ _ _ (Inv0_st _ _ I)), settled_fid. reflexivity. }
  rewrite H. unfold mbind at 1. rewrite E. cbn. eexists; reflexivity.
Qed.

Lemma calc_grad_is d d1 g : s_prop s <> Approx -> IG d -> whole (grad_calc (s_fid s)) d = Ok (d1, g) -> grad_is xgrad s a g.
Proof.
  intros HA Hd E. destruct (calc_gradient d d1 g Hd E) as (d2 & E2). destruct Hd as ((x & I) & G).
  destruct (gradient_ok s n m dr c Htau Hpos Hdr Hdrf Hc Hcf Hm Hdiagc Hfr Haug Hdiag a _ HA I) as (d3 & g' & E3 & _ & Hg & _).
  rewrite cm_gradient, E2 in E3. cbn [bind] in E3. injection E3 as _ <-. auto.
Qed.

Lemma h_gradient : s_prop s <> Approx -> h Ia Ia m_get_fid_err_gradient (fun _ => Ia).
Proof.
  intros HA. unfold m_get_fid_err_gradient.
  eapply h_bind; [apply h_reads with (Q := fun b d => Ia d /\ f_grad_cur (d_fidst d) = b)|]; auto.
  { intros d y I E. injection E as <-; auto. }
  intros [].
  - apply h_reads; [intros d (I & _); auto|]. intros d y (I & _) _; auto.
  - eapply h_bind; [apply h_reads with (Q := fun b d => IG d /\ b = s_fid s)|]; auto.
    { apply IG_Ia. }
    { intros d y (I & G) E. injection E as <-. split; [split; auto|].
      now rewrite (st_set _ _ _ _ _ _ (Inv0_st _ _ I)), settled_fid. }
    intros fk. apply h_const. intros ->. fold (grad_calc (s_fid s)).
    eapply h_bind with (R := fun g d => IG d /\ grad_is xgrad s a g).
    { eapply h_end; [apply fair_calc|apply h_calc|]. intros d d' g Hd E Hd'. split; [exact Hd'|exact (calc_grad_is d d' g HA Hd E)]. }
    intros g. apply h_const. intros Hg.
    eapply h_bind; [apply h_assign with (Q := fun _ d => Ia d /\ f_grad (d_fidst d) = Some g)|].
    { apply IG_Ia. }
    { intros d (I & G). splits; cbn; auto. apply Ia_fid1; auto. apply fidok_grad; auto. now apply Inv0_fid. }
    intros ? . eapply h_bind; [apply h_assign with (Q := fun _ d => Ia d)|].
    { intros d (I & _); auto. }
    { intros d (I & E). apply Ia_fid1; auto. eapply fidok_gradcur; eauto. now apply Inv0_fid. }
    intros ? . eapply h_bind; [apply h_assign with (Q := fun _ d => Ia d); auto; intros d; apply Ia_stats|].
    intros ? . eapply h_bind; [apply h_assign with (Q := fun _ d => Ia d); auto; intros d I|].
    intros ? . apply h_ret; auto.
Qed.

(** *** Updates *)

(** New amplitudes are stored, old results may still be marked as current. *)
Definition Half (b : amps) (d : dyn) : Prop := Static d /\ shape n m b /\ d_amps d = Some b.
Definition off (d : dyn) : Prop := d_evo_cur d = false /\ f_fid_cur (d_fidst d) = false /\
  f_grad_cur (d_fidst d) = false /\ f_pre_cur (d_fidst d) = false.

Lemma half_off b d : Half b d -> off d -> Inv0 b d.
Proof.
  intros (St & Sh & E) (E1 & E2 & E3 & E4). apply pend_Inv0. constructor; auto. constructor; congruence.
Qed.

Lemma half_flag b (f : dyn -> dyn) : (forall d, Half b d -> Half b (f d)) ->
  h (Half b) (Half b) (assign f) (fun _ => Half b).
Proof. intros H. apply h_assign; auto. Qed.

Lemma half_fid b d f : Half b d -> f_dimnorm f = f_dimnorm (d_fidst d) -> Half b (d <| d_fidst := f |>).
Proof.
  intros (St & Sh & E) Ef. split; [|split; [exact Sh|exact E]]. destruct St; constructor; auto; try (intros HF; cbn; rewrite Ef; auto).
Qed.

Lemma h_update b : shape n m b ->
  h Ia (fun d => Ia d \/ a <> b /\ Half b d) (m_update_ctrl_amps b) (fun _ => Inv0 b).
Proof.
  intros Sb. eapply h_end with (R := fun _ _ => True); [apply fair_update| |].
  - unfold m_update_ctrl_amps.
    eapply h_bind; [apply h_reads with (Q := fun x d => Ia d /\ (fst (fst x) = true -> a <> b))|]; auto.
    { intros d y I E. split; auto. unfold amps_changed in E. rewrite (Inv0_amps _ _ I) in E.
      destruct (neq_amps_spec n m a b (Inv0_shape _ _ I) Sb) as (ch & Ech & Hch). rewrite Ech in E. cbn [bind] in E.
      destruct (any (map any ch)) eqn:Ea; injection E as <-; cbn; [intros _; now apply Hch|discriminate]. }
    intros [[changed n_amps] n_slots]; cbn [fst]. apply h_const. intros Hb.
    do 3 (eapply h_bind; [apply h_assign with (Q := fun _ d => Ia d); auto; intros d; apply Ia_stats|intros ? ]).
    destruct changed; [|apply h_ret; auto]. specialize (Hb eq_refl).
    eapply h_bind; [apply h_assign with (Q := fun _ d => Half b d); auto|].
    { intros d I. split; [|split; [exact Sb|reflexivity]]. pose proof (Inv0_st _ _ I) as []. constructor; auto. }
    intros ? . eapply h_imp with (P := Half b) (E := Half b) (Q := fun _ _ => True);
      [|intros d H; exact H|intros d H; right; split; assumption|intros; exact Logic.I].
    unfold m_flag_system_changed.
    eapply h_bind; [apply half_flag; intros d (St & Sh & E); split; [destruct St; constructor; auto|split; [exact Sh|exact E]]|intros ? ].
    eapply h_bind; [apply half_flag; intros d H; apply half_fid; auto|intros ? ].
    eapply h_bind; [apply half_flag; intros d H; apply half_fid; auto|intros ? ].
    eapply h_imp; [apply half_flag; intros d H; apply half_fid; auto|intros d H; exact H|intros d H; exact H|intros; exact Logic.I].
  - intros d d' x (y & I) E _. rewrite whole_update in E. destruct (update_ctrl_amps b d) as [d1|] eqn:Eu; try discriminate.
    injection E as <- <-. destruct (update_ok s n m dr c a b _ Sb I) as (d2 & E2 & I2 & _).
    rewrite cm_update, Eu in E2. cbn [bind] in E2. injection E2 as <-. now exists y.
Qed.

(** *** One call *)
Lemma h_forget {X} (P E : dyn -> Prop) (p : M X) (Q : dyn -> Prop) : h P E p (fun _ => Q) -> h P E (forget p) (fun _ => Q).
Proof. intros H. unfold forget. eapply h_bind; [exact H|]. intros x. apply h_ret; auto. Qed.

Lemma h_acc o (f : dyn -> dyn) : (forall d : dyn, step o d = Ok (f d)) -> (forall x d, f (sg x d) = sg x (f d)) ->
  call_ok s n m o -> latest a [o] = a -> h Ia Ia (assign f) (fun _ => Ia).
Proof.
  intros Hs Hc' Ho Hl. apply h_assign; auto. intros d (x & I).
  destruct (step_ok s n m dr c Htau Hpos Hdr Hdrf Hc Hcf Hm Hdiagc Hfr Haug Hdiag a _ o Ho I) as (d1 & E & I1 & _).
  rewrite Hs, Hc' in E. injection E as <-. rewrite Hl in I1. now exists x.
Qed.

Definition updates (o : op) : option amps := match o with UpdateAmps b => Some b | _ => None end.

Lemma h_query o : call_ok s n m o -> updates o = None -> h Ia Ia (m_step o) (fun _ => Ia).
Proof.
  intros Ho Hu. destruct o; cbn [m_step]; try discriminate.
  - apply h_forget. eapply h_imp; [apply (h_evolution (fun _ => True))|intros d Hd; split; [exact Hd|exact Logic.I]|auto|].
    intros b d ((? & _) & _); auto.
  - apply h_forget, h_fid_err.
  - apply h_forget. eapply h_imp; [apply (h_fidelity (fun _ => True)); auto|intros d Hd; split; [exact Hd|exact Logic.I]|auto|].
    intros b d ((? & _) & _); auto.
  - apply h_forget. now apply h_gradient.
  - apply (h_acc GetDynGen); auto. intros x d. unfold get_dyn_gen. change (d_dg_q (sg x d)) with (d_dg_q d). destruct (d_dg_q d); reflexivity.
  - apply (h_acc GetProp); auto. intros x d. unfold get_prop. change (d_prop_q (sg x d)) with (d_prop_q d). destruct (d_prop_q d); reflexivity.
  - apply (h_acc GetPropGrad); auto. intros x d. unfold get_prop_grads. change (d_pg_q (sg x d)) with (d_pg_q d). change (d_pg (sg x d)) with (d_pg d). destruct (d_pg_q d), (d_pg d); reflexivity.
  - apply (h_acc GetFwdEvo); auto. intros x d. unfold get_fwd_evo. change (d_fwd_q (sg x d)) with (d_fwd_q d). destruct (d_fwd_q d); reflexivity.
  - apply (h_acc GetOnwdEvo); auto. intros x d. unfold get_onwd_evo. change (d_onwd_q (sg x d)) with (d_onwd_q d). change (d_onwd (sg x d)) with (d_onwd d). destruct (d_onwd d), (d_onwd_q d); reflexivity.
  - apply (h_acc GetOntoEvo); auto. intros x d. unfold get_onto_evo. change (d_onto_q (sg x d)) with (d_onto_q d). change (d_onto (sg x d)) with (d_onto d). destruct (d_onto d), (d_onto_q d); reflexivity.
Qed.

Lemma call_query o b d : call_ok s n m o -> updates o = None -> Ia d -> Ia (m_call (o, b) d).
Proof.
  intros Ho Hu I. pose proof (h_query o Ho Hu b d I) as H. unfold m_call; cbn [fst snd].
  destruct (m_step o b d) as [d' [x b'|e|]]; auto.
Qed.

Lemma call_update b k d : shape n m b -> Ia d ->
  let d' := m_call (UpdateAmps b, k) d in
  (k = None -> Inv0 b d') /\ (Ia d' \/ Inv0 b d' \/ a <> b /\ Half b d').
Proof.
  intros Sb I. pose proof (h_update b Sb k d I) as H. unfold m_call; cbn [fst snd m_step]. cbv zeta.
  destruct (m_update_ctrl_amps b k d) as [d' [x b'|e|]] eqn:Eu; split; auto; try tauto; cbn [fst].
  - intros ->. exfalso. apply fair_failed in Eu; [|apply fair_update]. destruct I as (y & I).
    destruct (update_ok s n m dr c a b _ Sb I) as (d2 & E2 & _).
    rewrite cm_update in E2. rewrite whole_update in Eu. destruct (update_ctrl_amps b d); discriminate.
  - intros ->. exfalso. pose proof (fair_update b None d) as F. rewrite Eu in F. congruence.
Qed.

End Cut.

(** *** Histories *)
Section Histories.
Context {A : Alg} (s : settings A) (n m : nat).
Hypothesis W : well_posed s n m.
Hypothesis RO : routines_ok s n m.

Definition Good0 (a : amps) (d : dyn A) : Prop := exists x, Good s n m a (sg x d).
Definition GHalf (a : amps) (d : dyn A) : Prop :=
  exists dr c, eff_drift s = Some dr /\ drift_fits n dr /\ eff_ctrls s = Some c /\ ctrls_fit n m c /\
               Half s n m dr c a d.

Lemma good0_inv a d : Good0 a d <->
  exists dr c, eff_drift s = Some dr /\ drift_fits n dr /\ eff_ctrls s = Some c /\ ctrls_fit n m c /\
               Inv0 s n m dr c a d.
Proof.
  split.
  - intros (x & dr & c & ? & ? & ? & ? & I). exists dr, c; splits; auto. now exists x.
  - intros (dr & c & ? & ? & ? & ? & x & I). exists x, dr, c; splits; auto.
Qed.

Lemma good0_amps a d : Good0 a d -> d_amps d = Some a /\ shape n m a.
Proof.
  intros G. apply good0_inv in G as (dr & c & _ & _ & _ & _ & I).
  split; [eapply Inv0_amps; eauto|eapply Inv0_shape; eauto].
Qed.

Lemma g_query a o b d : call_ok s n m o -> updates o = None -> Good0 a d -> Good0 a (m_call (o, b) d).
Proof.
  intros Ho Hu G. apply good0_inv in G as (dr & c & Hdr & Hdrf & Hc & Hcf & I). apply good0_inv. exists dr, c; splits; auto.
  destruct W as [Htau Hpos _ _ Hm Hdiagc]. destruct RO as (Hfr & Haug & Hdiag).
  now apply (call_query s n m dr c Htau Hpos Hdr Hdrf Hc Hcf Hm Hdiagc Hfr Haug Hdiag).
Qed.

Lemma g_update a b k d : shape n m b -> Good0 a d ->
  let d' := m_call (UpdateAmps b, k) d in
  (k = None -> Good0 b d') /\ (Good0 a d' \/ Good0 b d' \/ a <> b /\ GHalf b d').
Proof.
  intros Sb G. apply good0_inv in G as (dr & c & Hdr & Hdrf & Hc & Hcf & I).
  destruct (call_update s n m dr c a b k d Sb I) as (H1 & H2). cbv zeta. split.
  - intros E. apply good0_inv. exists dr, c; splits; auto.
  - destruct H2 as [H|[H|(H & H')]]; [left|right; left|right; right]; try (apply good0_inv; exists dr, c; splits; auto; fail).
    split; auto. exists dr, c; splits; auto; apply H'.
Qed.

Lemma ghalf_off a d : GHalf a d -> off d -> Good0 a d.
Proof.
  intros (dr & c & Hdr & Hdrf & Hc & Hcf & H) Ho. apply good0_inv. exists dr, c; splits; auto. now apply half_off.
Qed.

Lemma not_torn_off (d d' : dyn A) : d_amps d <> d_amps d' -> ~ torn d d' -> off d'.
Proof.
  intros Hn Ht. unfold torn in Ht. unfold off.
  destruct (d_evo_cur d'), (f_fid_cur (d_fidst d')), (f_grad_cur (d_fidst d')), (f_pre_cur (d_fidst d')); splits; auto;
    exfalso; apply Ht; auto 6.
Qed.

Lemma g_update_untorn a b k d : shape n m b -> Good0 a d -> ~ torn d (m_call (UpdateAmps b, k) d) ->
  Good0 a (m_call (UpdateAmps b, k) d) \/ Good0 b (m_call (UpdateAmps b, k) d).
Proof.
  intros Sb G Ht. destruct (g_update a b k d Sb G) as (_ & [H|[H|(Hn & H)]]); auto.
  right. apply ghalf_off; auto. apply (not_torn_off d); auto.
  rewrite (proj1 (good0_amps _ _ G)). destruct H as (dr & c & _ & _ & _ & _ & _ & _ & ->). congruence.
Qed.

Lemma g_calls l : forall a d, Forall (fun c => call_ok s n m (fst c)) l -> Good0 a d -> untorn l d ->
  exists a', may_hold a l a' /\ Good0 a' (m_calls l d).
Proof.
  induction l as [|[o b] l IH]; intros a d F G U; cbn [m_calls].
  - exists a; split; auto. reflexivity.
  - pose proof (Forall_inv F) as Ho. pose proof (Forall_inv_tail F) as F'. cbn [fst] in Ho. destruct U as (U1 & U2).
    destruct (updates o) as [b0|] eqn:Eu.
    + destruct o as [b1| | | | | | | | | | ]; try discriminate. injection Eu as ->. cbn [call_ok] in Ho.
      destruct b as [k|].
      * destruct (g_update_untorn a b0 (Some k) d Ho G U1) as [G'|G'];
          destruct (IH _ _ F' G' U2) as (a' & M & G2); exists a'; split; auto; cbn [may_hold]; auto.
      * destruct (g_update a b0 None d Ho G) as (G' & _). destruct (IH _ _ F' (G' eq_refl) U2) as (a' & M & G2).
        exists a'; split; auto.
    + destruct (IH a _ F' (g_query a o b d Ho Eu G) U2) as (a' & M & G2). exists a'; split; auto.
      destruct o; try discriminate; destruct b; exact M.
Qed.

(** *** Answers *)
Lemma good0_err a d : Good0 a d -> exists d', get_fid_err d = Ok (d', fid_err_of s a).
Proof.
  intros (x & G). destruct (good_err s n m W RO a _ G) as (d1 & E & _). rewrite cmv_fid_err in E.
  destruct (get_fid_err d) as [[d2 v]|]; try discriminate. cbn [bind] in E. injection E as _ ->. eauto.
Qed.
Lemma good0_fidelity a d : s_fid s = FUnit -> Good0 a d -> exists d', get_fidelity d = Ok (d', fidelity_of s a).
Proof.
  intros HF (x & G). destruct (good_fidelity s n m W RO a _ HF G) as (d1 & E & _). rewrite cmv_fidelity in E.
  destruct (get_fidelity d) as [[d2 v]|]; try discriminate. cbn [bind] in E. injection E as _ ->. eauto.
Qed.
Lemma good0_gradient a d : s_prop s <> Approx -> Good0 a d ->
  exists d' g, get_fid_err_gradient d = Ok (d', g) /\ grad_is (xgrad s) s a g.
Proof.
  intros HA (x & G). destruct (good_gradient s n m W RO a _ HA G) as (d1 & g & E & _ & Hg & _). rewrite cm_gradient in E.
  destruct (get_fid_err_gradient d) as [[d2 v]|]; try discriminate. cbn [bind] in E. injection E as _ ->. eauto.
Qed.
Lemma good0_evo a d : Good0 a d -> exists d' b, compute_evolution d = Ok (d', b) /\
  snd (get_dyn_gen d') = map Some (gens_of s a) /\ snd (get_prop d') = map Some (props_of s a) /\
  snd (get_fwd_evo d') = map (fun k => Some (evolve (firstn k (props_of s a)) (s_initial s))) (seq 0 (S n)).
Proof.
  intros (x & G). destruct (good_evo s n m W RO a _ G) as (d1 & b & E & G1 & C1 & _). rewrite cmv_evo in E.
  destruct (compute_evolution d) as [[d2 v]|]; try discriminate. cbn [bind] in E. injection E as <- ->.
  exists d2, b; split; auto. rewrite <- (good_dyn_gen s n m W RO a _ G1 C1), <- (good_prop s n m W RO a _ G1 C1), <- (good_fwd s n m a _ G1 C1).
  splits.
  - unfold get_dyn_gen. change (d_dg_q (sg x d2)) with (d_dg_q d2). destruct (d_dg_q d2); reflexivity.
  - unfold get_prop. change (d_prop_q (sg x d2)) with (d_prop_q d2). destruct (d_prop_q d2); reflexivity.
  - unfold get_fwd_evo. change (d_fwd_q (sg x d2)) with (d_fwd_q d2). destruct (d_fwd_q d2); reflexivity.
Qed.

Lemma good_good0 a d : Good s n m a d -> Good0 a d.
Proof. intros G. exists (f_gradnorm (d_fidst d)). now rewrite sg_own. Qed.

Lemma good0_answers a d : Good0 a d -> answers_for s a d.
Proof.
  intros G st. pose proof (proj2 (good0_amps _ _ G)) as Sh.
  destruct (session_ok s n m W RO st a [] Sh (Forall_nil _)) as (f & Ef & Gf & _). cbn [latest] in Gf.
  apply good_good0 in Gf. exists f; splits; auto.
  - destruct (good0_err _ _ G) as (d1 & E1), (good0_err _ _ Gf) as (f1 & E2). eauto 6.
  - intros HF. destruct (good0_fidelity _ _ HF G) as (d1 & E1), (good0_fidelity _ _ HF Gf) as (f1 & E2). eauto 6.
  - intros HA. destruct (good0_gradient _ _ HA G) as (d1 & g & E1 & H1), (good0_gradient _ _ HA Gf) as (f1 & g2 & E2 & H2).
    rewrite (grad_is_unique _ _ _ _ _ H2 H1) in E2. eauto 6.
  - destruct (good0_evo _ _ G) as (d1 & b1 & E1 & Q1 & Q2 & Q3), (good0_evo _ _ Gf) as (f1 & b2 & E2 & R1 & R2 & R3).
    exists d1, b1, f1, b2; splits; auto; congruence.
Qed.

Lemma session_good0 st a : shape n m a -> exists d, session s st a [] = Ok d /\ Good s n m a d.
Proof. intros Sh. destruct (session_ok s n m W RO st a [] Sh (Forall_nil _)) as (f & Ef & Gf & _). eauto. Qed.

End Histories.
