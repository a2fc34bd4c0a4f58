(** C48: the dynamic timeslot computer knows what is out of date.
    C62: it computes no generator or propagator without need. *)
From Coq Require Import Reals Lra.
From Coquelicot Require Import Complex.
From RecordUpdate Require Import RecordUpdate.
From Verif.Model Require Import Base Dyn DynUpd.
From Verif.Spec Require Import History Masks Scalar.
From Verif.Proofs Require Import DynProps MaskFacts MaskCount.
Local Open Scope nat_scope.
Set Bullet Behavior "Strict Subproofs".

Section Props.
Context {A : Alg}.
Variable cgen : option (nat -> list R -> Res (Op A)).
Variable cprop : option (nat -> Op A -> Res (Op A)).
Variable initial targ : Op A.
Notation du := (du A).

(** The amplitudes of a system; before the first update there are none. *)
Definition current_amps (s : du) : amps := match u_amps s with Some a => a | None => [] end.
(** A system after initialisation and any calls, whether they raised or not. *)
Definition after (n : nat) (st : option dstats) (l : list uop) : du :=
  uruns cgen cprop l (init_comp n initial targ st).

(** Whatever is not marked for recalculation is what the present amplitudes
    give, after any history. *)
Theorem C48_unmarked_current (n : nat) (st : option dstats) (l : list uop) :
  let s := after n st l in
  let a := current_amps s in
  (forall k, k < n -> rg s k = false -> exists g, u_gen s k = Some g /\ is_gen cgen a k g) /\
  (forall k, k < n -> rp s k = false -> exists p, u_prop s k = Some p /\ is_prop cgen cprop a k p) /\
  (forall k, k <= n -> rf s k = false -> exists x, u_fwd s k = Some x /\ is_fwd cgen cprop initial a k x) /\
  (forall k, k <= n -> ro s k = false -> exists x, u_onto s k = Some x /\ is_onto cgen cprop targ n a k x).
Proof. intros s a. destruct (history_sound cgen cprop initial targ n st l) as (_ & _ & _ & H4 & H5 & H6 & H7 & _). auto. Qed.

(** The amplitudes are those of the last update: an accepted update either
    found them equal or stored them. *)
Theorem C48_update (n : nat) (st : option dstats) (l : list uop) (a : amps) :
  let s := after n st l in
  forall s' same, compare a s = Ok (s', same) -> ~ Forall (fun row => row = []) a ->
    u_amps s' = Some a /\ (same = true -> s' = s) /\ (same = false -> u_cur s' = false).
Proof.
  intros s s' same He Ha. assert (Hs := history_sound cgen cprop initial targ n st l).
  destruct (compare_sound _ _ _ _ _ _ _ _ _ _ He Hs) as [(E1 & E2 & E3)|(E1 & E2 & E3 & _)].
  - splits; auto; [|congruence]. rewrite E2. change (uruns cgen cprop l _) with s in *.
    destruct (u_amps s) as [o|] eqn:Eo; [now rewrite (E3 _ eq_refl)|]. exfalso. apply Ha.
    unfold compare in He. rewrite Eo in He. cbn [bind] in He.
    destruct (any _) eqn:Ea; [|].
    + destruct (_ =? _); [|discriminate]. cbn -[first_last] in He. destruct (first_last _ _) as [[]]; [|discriminate]. congruence.
    + clear -Ea. induction a as [|r a IH]; [constructor|]. cbn in Ea. apply orb_false_iff in Ea as [E1 E2].
      constructor; auto. destruct r; [auto|discriminate].
  - splits; auto; congruence.
Qed.

(** There always is a timeslot for the fidelity; its forward evolution is up
    to date, and so is the onward one if that is the case in any timeslot.
    After a recomputation without exception both are current. *)
Theorem C48_slot (n : nat) (st : option dstats) (l : list uop) :
  let s := after n st l in
  0 < n ->
  exists s' k, get_timeslot s = Ok (s', k) /\ k < n /\ rf s k = false /\
    (forall j, j < n -> rf s j = false -> ro s j = false -> ro s k = false) /\
    forall r, recompute cgen cprop s' = (r, None) ->
      current_amps r = current_amps s /\
      (exists x, u_fwd r k = Some x /\ is_fwd cgen cprop initial (current_amps s) k x) /\
      (exists x, u_onto r k = Some x /\ is_onto cgen cprop targ n (current_amps s) k x).
Proof.
  intros s Hn. assert (Hs := history_sound cgen cprop initial targ n st l).
  change (uruns cgen cprop l _) with s in Hs. cbv zeta in Hs.
  assert (H0 : rf s 0 = false) by apply Hs. assert (Hu : u_n s = n) by apply Hs.
  destruct (slot_found s n Hn H0) as (k & Ek & Hk & Hr & Ho).
  unfold get_timeslot. rewrite Hu, Ek. eexists _, k. split; [reflexivity|]. splits; auto.
  intros r Hrec.
  destruct (recompute_sound cgen cprop initial targ n (amps_of s) _ _ _ Hrec Hs) as (R1 & R2 & _ & R4 & _).
  destruct (R4 eq_refl) as (_ & _ & R5 & R6). clear R4.
  assert (Ea : current_amps r = current_amps s) by (unfold current_amps; now rewrite R2).
  destruct R1 as (_ & _ & _ & _ & _ & Q6 & Q7 & _).
  splits; auto.
  - apply Q6; [lia|]. apply R5; [lia|]. cbn. apply put_eq.
  - apply Q7; [lia|]. apply R6; [lia|]. cbn. apply put_eq.
Qed.

(** Asking for everything and recomputing without exception makes every
    generator and propagator current, and all evolutions but two. *)
Theorem C48_all_partial (n : nat) (st : option dstats) (l : list uop) r :
  let s := after n st l in
  recompute cgen cprop (flag_all s) = (r, None) ->
  current_amps r = current_amps s /\
  (forall k, k < n -> exists g, u_gen r k = Some g /\ is_gen cgen (current_amps s) k g) /\
  (forall k, k < n -> exists p, u_prop r k = Some p /\ is_prop cgen cprop (current_amps s) k p) /\
  (forall k, k < n -> exists x, u_fwd r k = Some x /\ is_fwd cgen cprop initial (current_amps s) k x) /\
  (forall k, 1 <= k <= n -> exists x, u_onto r k = Some x /\ is_onto cgen cprop targ n (current_amps s) k x).
Proof.
  intros s Hrec. assert (Hs := history_sound cgen cprop initial targ n st l).
  change (uruns cgen cprop l _) with s in Hs. cbv zeta in Hs. assert (Hu : u_n s = n) by apply Hs.
  destruct (recompute_sound cgen cprop initial targ n (amps_of s) _ _ _ Hrec Hs) as (R1 & R2 & _ & R4 & _).
  destruct (R4 eq_refl) as (R5 & R6 & R7 & R8). clear R4.
  assert (Ea : current_amps r = current_amps s) by (unfold current_amps; now rewrite R2).
  destruct R1 as (_ & _ & _ & Q4 & Q5 & Q6 & Q7 & _).
  splits; auto.
  - intros k Hk. apply Q6; [lia|]. apply R7; [lia|]. change (nf (flag_all s) k) with ((k <? u_n s) || nf s k).
    rewrite Hu. apply Nat.ltb_lt in Hk. now rewrite Hk.
  - intros k Hk. apply Q7; [lia|]. apply R8; [lia|]. cbn. destruct k; [lia|reflexivity].
Qed.

(** Recomputing raises only what computing a generator or a propagator raises
    (or that there are no amplitudes yet); what it then has done is kept and
    [C48_unmarked_current] still holds. *)
Theorem C48_exceptions (n : nat) (st : option dstats) (l : list uop) r x :
  let s := after n st l in
  recompute cgen cprop s = (r, Some x) ->
  (cgen = None /\ x = AttributeError) \/ (cprop = None /\ x = AttributeError) \/
  (u_amps s = None /\ x = TypeError) \/
  (exists f a k row, cgen = Some f /\ u_amps s = Some a /\ nth_error a k = Some row /\ f k row = Raise x) \/
  (exists f k g, cprop = Some f /\ is_gen cgen (current_amps s) k g /\ f k g = Raise x).
Proof.
  intros s Hrec. assert (Hs := history_sound cgen cprop initial targ n st l).
  change (uruns cgen cprop l _) with s in Hs. cbv zeta in Hs.
  destruct (recompute_sound cgen cprop initial targ n (amps_of s) _ _ _ Hrec Hs) as (R1 & R2 & _ & _ & R5).
  destruct (R5 x eq_refl) as (k & now & Hk & Hnow & Hb).
  destruct R1 as (_ & Q2 & Q3 & Q4 & _).
  destruct Hb as [Hb|[Hb Hg]].
  - unfold gen_body in Hb. rewrite Hnow in Hb.
    assert (Ef : cgen = None \/ exists f, cgen = Some f) by (destruct cgen; eauto).
    destruct Ef as [Ef|[f Ef]]; rewrite Ef in Hb; cbn [call bind] in Hb; [injection Hb as <-; auto|].
    rewrite R2 in Hb. destruct (u_amps s) as [a|] eqn:Ea; cbn [some_or bind] in Hb; [|injection Hb as <-; auto].
    unfold get in Hb. destruct (nth_error a k) as [row|] eqn:Er.
    + cbn [bind] in Hb. destruct (f k row) as [g|y] eqn:Eg; [discriminate|]. injection Hb as ->.
      right. right. right. left. exists f, a, k, row. auto.
    + apply nth_error_None in Er. rewrite (Q3 a R2) in Er. lia.
  - unfold prop_body in Hb. rewrite Hnow in Hb.
    assert (Ef : cprop = None \/ exists f, cprop = Some f) by (destruct cprop; eauto).
    destruct Ef as [Ef|[f Ef]]; rewrite Ef in Hb; cbn [call bind] in Hb; [injection Hb as <-; auto|].
    destruct (Q4 k Hk Hg) as (g & Eg & Hg'). rewrite Eg in Hb. cbn [filled bind] in Hb.
    destruct (f k g) as [p|y] eqn:Ep; [discriminate|]. injection Hb as ->.
    right. right. right. right. exists f, k, g. auto.
Qed.

(** C62.  A generator or a propagator is computed at most once for each change
    of a timeslot's amplitudes (the first update counting as a change of every
    timeslot), whatever is asked for in between. *)
Theorem C62_work (n : nat) (st0 : dstats) (l : list uop) st a :
  num_dyn_gen_computes st0 = 0 -> num_prop_computes st0 = 0 ->
  let s := after n (Some st0) l in
  u_stats s = Some st -> u_amps s = Some a -> Forall (fun row => row <> []) a ->
  num_dyn_gen_computes st <= num_timeslot_changes (base st) /\
  num_prop_computes st <= num_timeslot_changes (base st).
Proof.
  intros H1 H2 s Hst Ha Hrow.
  destruct (history_count cgen cprop initial targ n st0 l ltac:(lia) ltac:(lia) st Hst) as [C1 C2].
  change (uruns cgen cprop l _) with s in *. unfold spare in *. rewrite Ha in *.
  assert (E : count (map empty_row a) = 0).
  { clear -Hrow. induction Hrow as [|r a Hr _ IH]; auto. destruct r; [congruence|]. exact IH. }
  lia.
Qed.

(** An update marks the generators and propagators of the slots whose
    amplitudes it changes, and no others. *)
Theorem C62_marks (n : nat) (st : option dstats) (l : list uop) old new s' :
  let s := after n st l in
  u_amps s = Some old -> compare new s = Ok (s', false) ->
  forall k, k < n ->
    (rg s' k = true <-> rg s k = true \/ nth_error old k <> nth_error new k) /\
    (rp s' k = true <-> rp s k = true \/ nth_error old k <> nth_error new k).
Proof.
  intros s Ha He k Hk. assert (Hs := history_sound cgen cprop initial targ n st l).
  change (uruns cgen cprop l _) with s in Hs. cbv zeta in Hs.
  now apply (compare_marks s n old new s').
Qed.

(** What an update counts: one update, the amplitudes that differ and the
    timeslots in which they do; an update that changes nothing counts nothing. *)
Theorem C62_counted (s : du) st old new s' same :
  u_stats s = Some st -> u_amps s = Some old -> compare new s = Ok (s', same) ->
  if same then old = new /\ s' = s
  else old <> new /\ exists st', u_stats s' = Some st' /\
    num_ctrl_amp_updates (base st') = S (num_ctrl_amp_updates (base st)) /\
    num_ctrl_amp_changes (base st') = diff_entries old new + num_ctrl_amp_changes (base st) /\
    num_timeslot_changes (base st') = diff_rows old new + num_timeslot_changes (base st).
Proof.
  intros Hst Ho. unfold compare. rewrite Ho. destruct (neq_amps old new) as [ch|] eqn:En; [|discriminate]. cbn [bind].
  destruct (neq_amps_count _ _ _ En) as (C1 & C2 & C3).
  assert (C4 : any (map any ch) = false <-> old = new) by (rewrite C3; destruct (list_eq_dec _ old new); split; auto; discriminate || tauto).
  destruct (any (map any ch)) eqn:Ea.
  - destruct (_ =? _); [|discriminate]. cbn -[first_last]. destruct (first_last _ _) as [[f|] la]; [|discriminate].
    rewrite Hst. intros [= <- <-]. split; [intros E; apply C4 in E; congruence|]. eexists. split; [reflexivity|].
    cbn. rewrite C1, C2. auto.
  - intros [= <- <-]. split; auto. now apply C4.
Qed.
(** The first update changes every amplitude. *)
Theorem C62_counted_first (s : du) st new s' :
  u_stats s = Some st -> u_amps s = None -> compare new s = Ok (s', false) ->
  exists st', u_stats s' = Some st' /\
    num_ctrl_amp_updates (base st') = S (num_ctrl_amp_updates (base st)) /\
    num_ctrl_amp_changes (base st') = length (concat new) + num_ctrl_amp_changes (base st) /\
    (Forall (fun row => row <> []) new -> num_timeslot_changes (base st') = length new + num_timeslot_changes (base st)).
Proof.
  intros Hst Ho. unfold compare. rewrite Ho. cbn [bind].
  destruct (any (map any _)) eqn:Ea; [|discriminate].
  destruct (_ =? _); [|discriminate]. cbn -[first_last]. destruct (first_last _ _) as [[f|] la]; [|discriminate].
  rewrite Hst. intros [= <-]. eexists. split; [reflexivity|]. cbn. splits; auto.
  - f_equal. clear. induction new as [|r a IH]; auto. cbn. unfold count in *. rewrite filter_app, !app_length, IH. f_equal.
    induction r; cbn; auto.
  - intros F. f_equal. clear -F. induction F as [|r a Hr _ IH]; auto. cbn. unfold count in *. destruct r; [congruence|]. cbn. now rewrite IH.
Qed.

(** With nothing marked nothing is computed or changed, whatever is asked for. *)
Theorem C62_idle (s : du) :
  (forall k, k < u_n s -> rg s k = false /\ rp s k = false) -> (forall k, k <= u_n s -> rf s k = false /\ ro s k = false) ->
  exists r, recompute cgen cprop s = (r, None) /\
    u_gen r = u_gen s /\ u_prop r = u_prop s /\ u_fwd r = u_fwd s /\ u_onto r = u_onto s /\ u_stats r = u_stats s.
Proof. intros H1 H2. rewrite recompute_idle by auto. eexists. split; [reflexivity|]. splits; reflexivity. Qed.
End Props.

(** The code as it is: Dynamics has no compute_dyn_gen, so a recomputation for
    the fidelity raises AttributeError after every history. *)
Theorem C48_missing_refuted {A : Alg} cprop (initial targ : Op A) (n : nat) (st : option dstats) (l : list uop) :
  let s := after None cprop initial targ n st l in
  0 < n ->
  exists s' k, get_timeslot s = Ok (s', k) /\ recompute None cprop s' = (s', Some AttributeError) /\
               (u_cur s = false -> compute_evo None cprop s' = (s', Some AttributeError)).
Proof.
  intros s Hn. assert (Hs := history_sound None cprop initial targ n st l).
  change (uruns None cprop l _) with s in Hs. cbv zeta in Hs.
  destruct Hs as (S1 & _ & _ & S4 & S5 & _ & S7 & S8 & _).
  assert (G : forall k, k < n -> rg s k = true).
  { intros k Hk. destruct (rg s k) eqn:E; auto. destruct (S4 k Hk E) as (g & _ & f & row & Hf & _). discriminate. }
  assert (P : forall k, k < n -> rp s k = true).
  { intros k Hk. destruct (rp s k) eqn:E; auto. destruct (S5 k Hk E) as (g & _ & f' & g' & _ & (f & row & Hf & _) & _). discriminate. }
  assert (O : forall k, k < n -> ro s k = true).
  { intros k Hk. destruct (ro s k) eqn:E; auto. destruct (S7 k ltac:(lia) E) as (x & _ & Hx).
    unfold is_onto in Hx. replace (n - k) with (S (n - S k)) in Hx by lia.
    destruct Hx as (p & y & (f' & g' & _ & (f & row & Hf & _) & _) & _). discriminate. }
  destruct (slot_found s n Hn S8) as (k & Ek & Hk & _).
  unfold get_timeslot. rewrite S1, Ek. eexists _, k. split; [reflexivity|].
  set (s' := s <| nf := _ |> <| no := _ |>).
  assert (E : recompute None cprop s' = (s', Some AttributeError)).
  { apply recompute_missing. exists k. splits; try apply G; auto.
    - change (u_n s') with (u_n s). lia.
    - right. split; [now apply P|]. right. split; [apply put_eq|now apply O]. }
  split; auto. intros Hc. unfold compute_evo. change (u_cur s') with (u_cur s). rewrite Hc, E. reflexivity.
Qed.

(** Two timeslots and one control, with the generator the amplitude itself and
    the propagator its exponential. *)
Definition ex_gen : nat -> list R -> Res (Op ScalarAlg) := fun _ row => Ok (RtoC (nth 0 row 0%R)).
Definition ex_prop : nat -> Op ScalarAlg -> Res (Op ScalarAlg) := fun _ g => Ok (cexp g).
Definition ex (n : nat) (l : list uop) : du ScalarAlg :=
  after (Some ex_gen) (Some ex_prop) (RtoC 1) (RtoC 1) n None l.

(** The two evolutions that are never asked for: after [flag_all_calc_now] and
    a recomputation, the complete evolution from the start and the one onto the
    target are still missing, although "all propagations" were to be
    calculated. *)
Theorem C48_all_refuted :
  let r := recompute (Some ex_gen) (Some ex_prop) (flag_all (ex 1 [Update [[1%R]]])) in
  snd r = None /\ u_fwd (fst r) 1 = None /\ u_onto (fst r) 0 = None.
Proof. intros r. splits; reflexivity. Qed.

(** [compute_evolution] does nothing once the fidelity's evolutions have been
    computed: what is asked for afterwards stays out of date. *)
Theorem C48_evolution_refuted :
  let s := ex 2 [Update [[1%R]; [2%R]]; SlotForFidelity; ComputeEvolution; FlagAll] in
  let r := compute_evo (Some ex_gen) (Some ex_prop) s in
  snd r = None /\ nf s 1 = true /\ rf (fst r) 1 = true /\ u_fwd (fst r) 1 = None.
Proof. intros s r. splits; reflexivity. Qed.

(** Histories in which something is computed, kept and marked again. *)
Example C48_history :
  let s := ex 2 [Update [[1%R]; [2%R]]; FlagAll; Recompute; Update [[1%R]; [3%R]]] in
  rg s 0 = false /\ rg s 1 = true /\ rf s 1 = false /\ ro s 1 = true /\ ro s 2 = false /\
  u_amps s = Some [[1%R]; [3%R]].
Proof.
  assert (E : neq_amps [[1%R]; [2%R]] [[1%R]; [3%R]] = Ok [[false]; [true]]).
  { cbn. unfold neqR. destruct (Req_EM_T 1 1), (Req_EM_T 2 3); try reflexivity; lra. }
  unfold ex, after, uruns. cbn [fold_left].
  set (s3 := ustep _ _ Recompute _). cbn [ustep]. unfold compare.
  assert (Ea : u_amps s3 = Some [[1%R]; [2%R]]) by reflexivity.
  assert (En : u_n s3 = 2) by reflexivity. assert (Es : u_stats s3 = None) by reflexivity.
  assert (E0 : rg s3 0 = false) by reflexivity. assert (E1 : rf s3 1 = false) by reflexivity.
  assert (E2 : ro s3 2 = false) by reflexivity.
  clearbody s3. revert E. generalize [[1%R]; [3%R]]. intros b E. rewrite Ea, E.
  clear E Ea. destruct s3. cbn in En, Es, E0, E1, E2. subst. splits; cbn; auto.
Qed.
(** A request met although one slot only was changed, and the work counted. *)
Example C48_requests :
  let s := ex 2 [Update [[1%R]; [2%R]]] in
  let t := ustep (Some ex_gen) (Some ex_prop) SlotForFidelity s in
  let r := recompute (Some ex_gen) (Some ex_prop) t in
  no t 0 = true /\ nf t 0 = true /\ snd r = None /\
  u_onto (fst r) 0 = Some (omul ScalarAlg (omul ScalarAlg (RtoC 1) (cexp (RtoC 2))) (cexp (RtoC 1))).
Proof. intros s t r. splits; reflexivity. Qed.
Example C62_work_counts (st : Stats.stats) :
  let s0 : du ScalarAlg := after (Some ex_gen) (Some ex_prop) (RtoC 1) (RtoC 1) 2
             (Some (mkDS (Stats.clear st) 0 0%R 0%R 0 0%R 0%R 0 0%R 0%R 0 0%R 0%R)) [Update [[1%R]; [2%R]]; FlagAll; Recompute] in
  option_map num_prop_computes (u_stats s0) = Some 2 /\
  option_map (fun st => num_timeslot_changes (base st)) (u_stats s0) = Some 2.
Proof. split; reflexivity. Qed.

Lemma counted_one (s : du ScalarAlg) : u_amps s = Some [[1%R]; [2%R]] -> u_n s = 2 ->
  exists s', compare [[1%R]; [3%R]] s = Ok (s', false).
Proof.
  intros Ea En. assert (E : neq_amps [[1%R]; [2%R]] [[1%R]; [3%R]] = Ok [[false]; [true]]).
  { cbn. unfold neqR. destruct (Req_EM_T 1 1), (Req_EM_T 2 3); try reflexivity; lra. }
  unfold compare. rewrite Ea. revert E. generalize [[1%R]; [3%R]]. intros b E. rewrite E. cbn -[first_last]. rewrite En.
  change (first_last 2 _) with (Some 1, 1). cbn. eauto.
Qed.
Example C62_counted_case (st : Stats.stats) :
  let s0 : du ScalarAlg := after (Some ex_gen) (Some ex_prop) (RtoC 1) (RtoC 1) 2
             (Some (mkDS (Stats.clear st) 0 0%R 0%R 0 0%R 0%R 0 0%R 0%R 0 0%R 0%R)) [Update [[1%R]; [2%R]]; FlagAll; Recompute] in
  u_amps s0 = Some [[1%R]; [2%R]] /\ u_stats s0 <> None /\ exists s', compare [[1%R]; [3%R]] s0 = Ok (s', false).
Proof.
  intros s0. assert (E1 : u_amps s0 = Some [[1%R]; [2%R]]) by reflexivity.
  assert (E2 : option_map num_prop_computes (u_stats s0) = Some 2) by reflexivity.
  assert (E3 : u_n s0 = 2) by reflexivity. clearbody s0. splits; auto; [|now apply counted_one].
  intros H. rewrite H in E2. discriminate.
Qed.

(** Assumptions of all theorems of this file together (listed one by one in
    ASSUMPTIONS.txt). *)
Definition propsMasks :=
  (@C48_unmarked_current,
   @C48_update,
   @C48_slot,
   @C48_all_partial,
   @C48_exceptions,
   @C62_work,
   @C62_marks,
   @C62_counted,
   @C62_counted_first,
   @C62_idle,
   @C48_missing_refuted,
   @C48_all_refuted,
   @C48_evolution_refuted).
Print Assumptions propsMasks.
