(** Property C86: the memory options of a Dynamics object.

    See [Model/Memory.v]: [init_memory dim stored p m] is what initialising
    the timeslots of an object with the operators [p] makes of the options
    [m]: the new options and the exception, if any.  [mruns] is a history of
    assignments and initialisations, the caller going on after exceptions. *)
From Coq Require Import Reals Lia.
From Coquelicot Require Import Coquelicot.
From RecordUpdate Require Import RecordUpdate.
From Verif.Model Require Import Base Dyn Memory.
From Verif.Spec Require Import Evolution History MatAlg Qubit Physics Memory.
From Verif.Proofs Require Import DynRun DynHistory MatFacts MatProps PhysFacts MemoryFacts.
From Verif.Props Require Import PropsMatrix PropsPhysics.
Local Open Scope nat_scope.
Set Bullet Behavior "Strict Subproofs".

Section C86.
Context {A : Alg} (dim : Op A -> nat) (stored : Op A -> option nat).

(** ** What is chosen *)
(** An option that was assigned is kept; the others follow the level: nothing
    is kept in memory from level 1 on, and sparse methods are used from level
    2 on.  (If the operators of the first timeslot cannot be added up, nothing
    is assigned: [C86_refused].) *)
Theorem C86_explicit (p : problem A) (m m' : memory) e : init_memory dim stored p m = (m', e) -> all_added p <> Raise IndexError ->
  m_level m' = m_level m /\
  kept_or (m_ph m) (m_level m <=? 0)%Z (m_ph m') /\
  kept_or (m_pg m) (m_level m <=? 0)%Z (m_pg m') /\
  kept_or (m_adj m) (m_level m <=? 0)%Z (m_adj m') /\
  kept_or (m_sp m) (2 <=? m_level m)%Z (m_sp m') /\
  (forall t, m_dtype m = Some t -> m_dtype m' = Some t).
Proof.
  intros E NR. assert (E1 : (negb (0 <? m_level m) = (m_level m <=? 0))%Z) by (destruct (Z.ltb_spec 0 (m_level m)), (Z.leb_spec (m_level m) 0); auto; lia).
  assert (E2 : ((1 <? m_level m) = (2 <=? m_level m))%Z) by (destruct (Z.ltb_spec 1 (m_level m)), (Z.leb_spec 2 (m_level m)); auto; lia).
  destruct (init_cases dim stored p m m' e E) as [(S & _)|(x & S & _)].
  - destruct (setmem_ok dim stored p m m' S) as (H0 & H1 & H2 & H3 & H4 & H5). rewrite E1 in *. rewrite E2 in *. splits; auto.
    intros t Et. rewrite Et in H5. auto.
  - apply setmem_raise in S as (_ & _ & S). destruct NR. rewrite S. f_equal. eapply added_raise; eauto.
Qed.

(** (These are the settings of Model/Dyn.v, which takes the flags from
    [mem_opt].) *)
Theorem C86_flags (p : problem A) (m m' : memory) : init_memory dim stored p m = (m', None) ->
  let '(ph, pg, adj, sp) := mem_opt (m_level m) (m_ph m) (m_pg m) (m_adj m) (m_sp m) in
  m_ph m' = Some ph /\ m_pg m' = Some pg /\ m_adj m' = Some adj /\ m_sp m' = Some sp.
Proof.
  intros E. destruct (init_cases dim stored p m m' None E) as [(S & _)|(x & _ & _ & X)]; [|discriminate].
  destruct (setmem_ok dim stored p m m' S) as (_ & H1 & H2 & H3 & H4 & _). unfold mem_opt, kept_or in *.
  destruct (m_ph m), (m_pg m), (m_adj m), (m_sp m); auto.
Qed.

(** A data type left unset: Qobj from level 1 on; otherwise ndarray, unless
    the operators are of dimension above 400 and, added up, have at most one
    entry in a hundred. *)
Theorem C86_dtype (p : problem A) (m m' : memory) e : init_memory dim stored p m = (m', e) -> m_dtype m = None ->
  ((0 < m_level m)%Z -> m_dtype m' = Some TQobj) /\
  (forall o, (m_level m <= 0)%Z -> all_added p = Ok o ->
     (400 < dim o /\ 100 * entries dim stored o <= dim o * dim o -> m_dtype m' = Some TQobj) /\
     (~ (400 < dim o /\ 100 * entries dim stored o <= dim o * dim o) -> m_dtype m' = Some TNdarray)).
Proof.
  intros E D. destruct (init_cases dim stored p m m' e E) as [(S & _)|(x & S & _)].
  - destruct (setmem_ok dim stored p m m' S) as (_ & _ & _ & _ & _ & H). rewrite D in H. split.
    + intros L. destruct H as [[_ H]|[L' _]]; auto. lia.
    + intros o L Eo. destruct H as [[L' _]|(_ & o' & Eo' & H)]; [lia|]. rewrite Eo in Eo'. injection Eo' as <-. rewrite H. unfold by_density.
      destruct (Nat.ltb_spec (dim o * dim o) (100 * entries dim stored o)), (Nat.ltb_spec 400 (dim o)); split; intros Q; auto; lia.
  - apply setmem_raise in S as (_ & L & S). split; [lia|]. intros o _ Eo. congruence.
Qed.
(** What is looked at is the drift plus all controls of the first timeslot,
    and nothing else; without them it is an IndexError. *)
Theorem C86_first_slot (p : problem A) :
  (forall dg cs, first_drift p dg -> first_controls p cs -> all_added p = Ok (fold_left (oadd A) cs dg)) /\
  (all_added p = Raise IndexError <-> ~ exists dg cs, first_drift p dg /\ first_controls p cs).
Proof.
  unfold first_drift, first_controls, all_added, get. destruct p as [[o|[|o dr]] [c|[|c cs]] i]; cbn; split;
    try (intros dg ct H1 H2; try discriminate H1; try discriminate H2; try injection H1 as <-; try injection H2 as <-; subst; reflexivity);
    split; try (intros _ (dg & ct & H1 & H2); discriminate); try discriminate; try (intros _; reflexivity);
    intros H; destruct H; eauto.
Qed.
(** An operator with dense data has all its entries, so is never "sparse". *)
Theorem C86_dense (p : problem A) (m m' : memory) e o : init_memory dim stored p m = (m', e) -> m_dtype m = None -> (m_level m <= 0)%Z ->
  all_added p = Ok o -> stored o = None -> 0 < dim o -> m_dtype m' = Some TNdarray.
Proof.
  intros E D L Eo Es P. destruct (C86_dtype p m m' e E D) as [_ H]. apply (H o L Eo). unfold entries. rewrite Es. intros [_ Q]. nia.
Qed.

(** ** When it is refused *)
(** Exactly when the operators of the first timeslot cannot be added up and
    that would be needed, when sparse eigenvectors are asked for (or follow
    from the level) with an initial operator of dimension at most 2, or when
    the data type is not one of the two. *)
Theorem C86_refused (p : problem A) (m m' : memory) e : init_memory dim stored p m = (m', e) ->
  (e <> None <->
   (m_dtype m = None /\ (m_level m <= 0)%Z /\ all_added p = Raise IndexError) \/
   (dim (pr_initial p) <= 2 /\ (m_sp m = Some true \/ (m_sp m = None /\ (2 <= m_level m)%Z))) \/
   m_dtype m = Some TOther).
Proof.
  intros E. destruct (init_cases dim stored p m m' e E) as [(S & H)|(x & S & -> & ->)].
  - destruct (setmem_ok dim stored p m m' S) as (_ & _ & _ & _ & H4 & H5).
    assert (Hs : m_sp m' = Some true <-> (m_sp m = Some true \/ (m_sp m = None /\ (2 <= m_level m)%Z))).
    { unfold kept_or in H4. destruct (m_sp m) as [b|] eqn:Eb; rewrite H4; [split; [intros [= ->]; auto|intros [Q|[Q _]]; congruence]|].
      destruct (Z.ltb_spec 1 (m_level m)); split; auto; try (intros [Q|[_ Q]]; [congruence|lia]); intros; try discriminate; right; split; auto; lia. }
    assert (Ht : m_dtype m' = Some TOther <-> m_dtype m = Some TOther).
    { destruct (m_dtype m) as [t|]; [rewrite H5; tauto|]. destruct H5 as [[_ ->]|(_ & o & _ & ->)]; [split; discriminate|]. unfold by_density. repeat destruct (Nat.ltb _ _); split; discriminate. }
    assert (N1 : ~ (m_dtype m = None /\ (m_level m <= 0)%Z /\ all_added p = Raise IndexError)).
    { intros (D & L & R). rewrite D in H5. destruct H5 as [[L' _]|(_ & o & Eo & _)]; [lia|congruence]. }
    rewrite <- Hs, <- Ht. destruct H as [(Q1 & Q2 & ->)|[(Q1 & Q2 & ->)|(Q1 & Q2 & ->)]]; split; intros; try congruence; try discriminate; auto.
    exfalso. tauto.
  - apply setmem_raise in S as (D & L & S). pose proof (added_raise p x S) as ->. split; [auto|discriminate].
Qed.

(** ** Once chosen, chosen *)
(** After an initialisation that got as far as choosing, neither another
    level nor other operators change any of the choices, however often the
    object is initialised again; only assigning the options does. *)
Theorem C86_sticky (p : problem A) (m m' : memory) e l : init_memory dim stored p m = (m', e) -> all_added p <> Raise IndexError ->
  Forall no_option l -> same_decisions m' (fst (mruns dim stored l (m', p))).
Proof.
  intros E NR F. apply runs_same; auto. destruct (init_cases dim stored p m m' e E) as [(S & _)|(x & S & _)].
  - eapply setmem_decided; eauto.
  - apply setmem_raise in S as (_ & _ & S). destruct NR. rewrite S. f_equal. eapply added_raise; eauto.
Qed.
(** So a level of 2 or more with a two-level system, which is refused, goes on
    being refused after the level was lowered, whatever else is assigned and
    however often, as long as the system stays so small ... *)
Theorem C86_stuck_refuted (p : problem A) (m m' : memory) e l : init_memory dim stored p m = (m', e) ->
  m_sp m = None -> (2 <= m_level m)%Z -> dim (pr_initial p) <= 2 -> Forall not_sparse l ->
  let '(m2, p2) := mruns dim stored l (m', p) in
  dim (pr_initial p2) <= 2 -> snd (init_memory dim stored p2 m2) <> None.
Proof.
  intros E S L D F. destruct (mruns dim stored l (m', p)) as [m2 p2] eqn:E2. intros D2.
  assert (S' : m_sp m' = Some true).
  { destruct (init_cases dim stored p m m' e E) as [(Q & _)|(x & Q & _)]; [|apply setmem_raise in Q as (_ & Q & _); lia].
    destruct (setmem_ok dim stored p m m' Q) as (_ & _ & _ & _ & H4 & _). rewrite S in H4. cbn in H4. rewrite H4. destruct (Z.ltb_spec 1 (m_level m)); auto; lia. }
  pose proof (runs_sparse dim stored l m' p true F S') as H. rewrite E2 in H. cbn in H.
  destruct (init_memory dim stored p2 m2) as [m3 e3] eqn:E3. cbn. apply (C86_refused p2 m2 m3 e3 E3). auto.
Qed.
(** ... but not after sparse_eigen_decomp was set to False. *)
Theorem C86_unstuck (p : problem A) (m m' : memory) e : init_memory dim stored p m = (m', e) ->
  m_sp m = None -> (2 <= m_level m)%Z -> m_dtype m <> Some TOther ->
  snd (mstep dim stored Initialise (mruns dim stored [SetSparse (Some false)] (m', p))) = None.
Proof.
  intros E S L D. cbn. destruct (init_memory dim stored p (m' <| m_sp := Some false |>)) as [m3 e3] eqn:E3. cbn.
  pose proof (C86_refused p _ m3 e3 E3) as H. destruct e3 as [x|]; auto. exfalso.
  destruct (init_cases dim stored p m m' e E) as [(Q & _)|(y & Q & _)]; [|apply setmem_raise in Q as (_ & Q & _); lia].
  destruct (setmem_ok dim stored p m m' Q) as (HL & _ & _ & _ & _ & H5).
  destruct H as [H _]. destruct H as [(H & _)|[(_ & [H|[H _]])|H]]; try discriminate; cbn in H.
  - destruct (m_dtype m); [congruence|]. destruct H5 as [[_ H5]|[H5 _]]; [congruence|lia].
  - destruct (m_dtype m) as [t|]; [congruence|]. destruct H5 as [[_ H5]|[H5 _]]; [congruence|lia].
Qed.
End C86.

(** ** The options are about memory only *)
(** Whatever the options and the level came to, the object reports the same
    final operator, fidelity error and gradient.  (sparse_eigen_decomp selects
    the routine of QuTiP that finds the eigenvectors, which is a parameter of
    the model.) *)
Theorem C86_results N rt q (s : settings (MatAlg N rt)) n m mem mem' st st' a ops :
  exact_routines N rt -> ready N rt q s n m a ops -> 0 < m ->
  (exists U v, reports (with_memory mem s) st a ops U v /\ reports (with_memory mem' s) st' a ops U v) /\
  (exact_gradients N rt s (latest a ops) ->
   exists g, reports_gradient (with_memory mem s) st a ops g /\ reports_gradient (with_memory mem' s) st' a ops g).
Proof.
  intros EX H P. pose proof (ready_memory N rt q s n m mem a ops H P) as H1. pose proof (ready_memory N rt q s n m mem' a ops H P) as H2. split.
  - destruct H1 as [W1 SP1 HD1 Ha1 F1], H2 as [W2 SP2 HD2 Ha2 F2].
    eapply C69_same_problem; eauto; try (eapply mat_routines; eauto). apply memory_same.
  - intros X. apply (C69_same_gradient N rt q (with_memory mem s) (with_memory mem' s) n m st st' a a ops ops); auto. apply memory_same.
Qed.

(** ** Cases *)
(** A qubit, and (only the sizes matter) a system of dimension 500 with sparse
    operators. *)
Definition demo : problem QAlg := mkProblem (DConst (sigma_z : Op QAlg)) (CList [(sigma_x : Op QAlg)]) (sigma_z : Op QAlg).
Notation small := (init_memory (A := QAlg) (fun _ => 2) (fun _ => None) demo).
Notation large := (init_memory (A := QAlg) (fun _ => 500) (fun _ => Some 1000) demo).
Example C86_nonvacuous :
  all_added demo <> Raise IndexError /\
  (* level 0: everything is kept, as ndarray *)
  small new_memory = (mkMem 0 (Some TNdarray) (Some true) (Some true) (Some true) (Some false), None) /\
  (* level 1: nothing is kept, as Qobj *)
  small (new_memory <| m_level := 1%Z |>) = (mkMem 1 (Some TQobj) (Some false) (Some false) (Some false) (Some false), None) /\
  (* level 2 is refused here, and again with level 0 *)
  snd (small (new_memory <| m_level := 2%Z |>)) = Some ValueError /\
  snd (small (fst (small (new_memory <| m_level := 2%Z |>)) <| m_level := 0%Z |>)) = Some ValueError /\
  (* a large sparse system is fine with it; at level 0 it is also Qobj *)
  snd (large (new_memory <| m_level := 2%Z |>)) = None /\
  m_dtype (fst (large new_memory)) = Some TQobj.
Proof.
  splits; try reflexivity. discriminate.
Qed.
Example C86_results_case T f po : matrix 2 2 T -> let s := qubit T Diag f po (1/10) in
  ready 2 qubit_routines 2 s 2 1 qx_amps qx_ops /\ exact_gradients 2 qubit_routines s (latest qx_amps qx_ops) /\
  with_memory (mkMem 1 (Some TQobj) (Some false) (Some false) (Some false) (Some false)) s <>
  with_memory (mkMem 0 (Some TNdarray) (Some true) (Some true) (Some true) (Some false)) s.
Proof.
  intros HT s. destruct (C69_case T f po HT) as (H1 & _ & H3 & _). splits; auto. intros E. apply (f_equal s_dtype) in E. discriminate.
Qed.

(** Assumptions of all theorems of this file together (listed one by one in
    ASSUMPTIONS.txt). *)
Definition propsMemory :=
  (@C86_explicit,
   @C86_flags,
   @C86_dtype,
   @C86_first_slot,
   @C86_dense,
   @C86_refused,
   @C86_sticky,
   @C86_stuck_refuted,
   @C86_unstuck,
   @C86_results).
Print Assumptions propsMemory.
