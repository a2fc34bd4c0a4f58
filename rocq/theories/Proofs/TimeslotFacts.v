(** Lemmas for Props/PropsTimeslots.v. *)
From Coq Require Import Reals Lra.
From RecordUpdate Require Import RecordUpdate.
From Verif.Model Require Import Base Timeslots.
Local Open Scope R_scope.

Lemma sum_repeat x n : sumR (repeat x n) = INR n * x.
Proof.
  induction n as [|n IH]; [cbn; ring|]. rewrite S_INR. cbn [repeat sumR fold_right].
  change (fold_right Rplus 0 (repeat x n)) with (sumR (repeat x n)). rewrite IH. ring.
Qed.

Lemma cumulate_length t l : length (cumulate t l) = S (length l).
Proof. revert t; induction l; cbn; auto. Qed.
Lemma cumulate_0 t l : nth_error (cumulate t l) 0 = Some t.
Proof. destruct l; reflexivity. Qed.
Lemma cumulate_last t l : nth_error (cumulate t l) (length l) = Some (t + sumR l).
Proof.
  revert t; induction l as [|x l IH]; intros t; cbn; [f_equal; ring|].
  rewrite IH. f_equal. unfold sumR; cbn. ring.
Qed.
Lemma cumulate_step t l k u x : nth_error (cumulate t l) k = Some u -> nth_error l k = Some x ->
  nth_error (cumulate t l) (S k) = Some (u + x).
Proof.
  revert t k; induction l as [|y l IH]; intros t [|k]; cbn [cumulate nth_error]; try discriminate.
  - intros [= ->] [= ->]. apply cumulate_0.
  - apply IH.
Qed.


Definition ok1 (d : tslots) : Prop :=
  exists l, ts_tau d = Some l /\ ts_num d = Some (length l) /\ ts_evo d = Some (sumR l) /\
            ts_time d = cumulate 0 l /\ ts_init d = true /\ l <> [].

Lemma init_eq num evo time ini :
  let n := match num with Some n => n | None => DEF_NUM_TSLOTS end in
  let T := match evo with Some n => n | None => DEF_EVO_TIME end in
  init_timeslots (mkTs num evo None time ini) =
  mkTs (Some n) (Some T) (Some (repeat (1 * T / INR n) n)) (cumulate 0 (repeat (1 * T / INR n) n)) true.
Proof. destruct num, evo; reflexivity. Qed.

Lemma init_eq_some num evo l time ini :
  init_timeslots (mkTs num evo (Some l) time ini) = mkTs (Some (length l)) (Some (sumR l)) (Some l) (cumulate 0 l) true.
Proof. destruct num, evo; reflexivity. Qed.

Lemma init_none num evo time ini : num <> Some 0%nat -> ok1 (init_timeslots (mkTs num evo None time ini)).
Proof.
  intros Hn. rewrite init_eq.
  set (n := match num with Some n => n | None => DEF_NUM_TSLOTS end).
  set (T := match evo with Some n => n | None => DEF_EVO_TIME end).
  assert (N0 : n <> 0%nat) by (subst n; destruct num as [k|]; [congruence|discriminate]).
  assert (N : INR n <> 0) by (apply not_0_INR; auto).
  eexists; cbn [ts_tau ts_num ts_evo ts_time ts_init]; repeat split; auto.
  - rewrite repeat_length; auto.
  - rewrite sum_repeat. f_equal. field; auto.
  - destruct n; [congruence|discriminate].
Qed.

Lemma init_some num evo l time ini : l <> [] -> ok1 (init_timeslots (mkTs num evo (Some l) time ini)).
Proof. intros Hl. rewrite init_eq_some. exists l; cbn; repeat split; auto. Qed.

Definition good (d : tslots) : Prop :=
  ts_num d <> Some 0%nat /\ (ts_init d = false -> ts_tau d = None) /\ (ts_init d = true -> ok1 d).

Lemma ok1_good d : ok1 d -> good d.
Proof.
  intros (l & H1 & H2 & H3 & H4 & H5 & H6). split; [|split].
  - rewrite H2. destruct l; [congruence|discriminate].
  - congruence.
  - intros _; exists l; auto 10.
Qed.

Lemma touch_good d : good d -> ok1 (touch d).
Proof.
  intros (Hn & Ht & Hi). unfold touch. destruct (ts_init d) eqn:E; auto.
  destruct d as [num evo tau time ini]. specialize (Ht eq_refl). cbn in Ht, Hn. subst tau. apply init_none; auto.
Qed.

Definition pos (o : ts_op) : Prop := o <> SetNum (Some 0%nat) /\ o <> SetTau (Some []).

Lemma step_good d o : good d -> pos o -> good (ts_step d o).
Proof.
  intros G [P1 P2]. pose proof (ok1_good _ (touch_good _ G)) as T.
  destruct o as [v|v|v| | |]; cbn [ts_step get_num_tslots get_evo_time get_tau fst]; auto.
  - destruct G as (Hn & Ht & Hi). unfold set_num_tslots. destruct d as [num evo tau time ini]; cbn in *.
    assert (Hv : v <> Some 0%nat) by congruence.
    destruct ini; [apply ok1_good, init_none; auto|]. unfold good; cbn; repeat split; auto; discriminate.
  - destruct G as (Hn & Ht & Hi). unfold set_evo_time. destruct d as [num evo tau time ini]; cbn in *.
    destruct ini; [apply ok1_good, init_none; auto|]. unfold good; cbn; repeat split; auto; discriminate.
  - destruct G as (Hn & Ht & Hi). unfold set_tau_slots. destruct d as [num evo tau time ini]; cbn in *.
    apply ok1_good. destruct v as [l|]; [apply init_some; congruence|apply init_none; auto].
Qed.

Lemma run_good ops d : good d -> Forall pos ops -> good (ts_run ops d).
Proof.
  unfold ts_run. revert d; induction ops as [|o ops IH]; intros d G F; cbn; auto.
  apply IH; [apply step_good; auto; apply (Forall_inv F)|apply (Forall_inv_tail F)].
Qed.

Lemma new_good : good new_ts.
Proof. split; [discriminate|split]; cbn; auto; discriminate. Qed.

Lemma consistent ops : Forall pos ops ->
  let d := ts_run ops new_ts in
  exists n T tau,
    snd (get_num_tslots d) = Some n /\ snd (get_evo_time d) = Some T /\ snd (get_tau d) = Some tau /\
    length tau = n /\ fold_right Rplus 0 tau = T /\
    let time := ts_time (touch d) in
    length time = S n /\ nth_error time 0 = Some 0 /\ nth_error time n = Some T /\
    forall k t x, nth_error time k = Some t -> nth_error tau k = Some x -> nth_error time (S k) = Some (t + x).
Proof.
  intros F d. destruct (touch_good _ (run_good ops new_ts new_good F)) as (l & H1 & H2 & H3 & H4 & _).
  fold d in H1, H2, H3, H4. exists (length l), (sumR l), l.
  unfold get_num_tslots, get_evo_time, get_tau; cbn [snd]. rewrite H1, H2, H3, H4.
  repeat split; auto.
  - apply cumulate_length.
  - apply cumulate_0.
  - rewrite cumulate_last. f_equal. ring.
  - intros k t x. apply cumulate_step.
Qed.

Lemma explicit_kept (ops reads : list ts_op) l :
  Forall (fun o => In o [ReadNum; ReadEvo; ReadTau]) reads ->
  let d := ts_run (ops ++ SetTau (Some l) :: reads) new_ts in
  snd (get_tau d) = Some l /\ snd (get_num_tslots d) = Some (length l) /\
  snd (get_evo_time d) = Some (fold_right Rplus 0 l).
Proof.
  intros F d.
  assert (E : d = mkTs (Some (length l)) (Some (sumR l)) (Some l) (cumulate 0 l) true).
  { subst d. unfold ts_run. rewrite fold_left_app. cbn [fold_left ts_step].
    unfold set_tau_slots. destruct (fold_left ts_step ops new_ts) as [num evo tau time ini].
    change (mkTs num evo tau time ini <| ts_tau := Some l |>) with (mkTs num evo (Some l) time ini).
    rewrite init_eq_some. induction reads as [|o r IH]; auto. cbn [fold_left].
    rewrite <- IH at 2 by apply (Forall_inv_tail F). f_equal.
    destruct (Forall_inv F) as [<-|[<-|[<-|[]]]]; reflexivity. }
  rewrite E. auto.
Qed.

Lemma equal_slots ops : Forall pos ops ->
  let d := ts_run ops new_ts in
  (forall T n, snd (get_num_tslots d) = Some n -> ts_init d = true ->
     snd (get_tau (ts_step d (SetEvo (Some T)))) = Some (repeat (T / INR n) n)) /\
  (forall T n, n <> 0%nat -> snd (get_evo_time d) = Some T -> ts_init d = true ->
     snd (get_tau (ts_step d (SetNum (Some n)))) = Some (repeat (T / INR n) n)).
Proof.
  intros F d. generalize d; clear d F. intros [num evo tau time ini].
  unfold get_num_tslots, get_evo_time, get_tau, touch; cbn [snd ts_init].
  split; intros T n; cbn [ts_num ts_evo]; intros.
  - subst ini. cbn [ts_step set_evo_time ts_num] in *. subst num. cbn [ts_step].
    unfold set_evo_time. cbn. destruct n; cbn; rewrite ?Rmult_1_l; reflexivity.
  - subst ini. cbn [ts_evo] in *. subst evo. cbn [ts_step].
    unfold set_num_tslots. cbn. destruct n; cbn; rewrite ?Rmult_1_l; reflexivity.
Qed.

Lemma before_reading n T :
  snd (get_tau (ts_run [SetNum (Some n); SetEvo (Some T)] new_ts)) = Some (repeat (T / INR n) n) /\
  snd (get_tau (ts_run [SetEvo (Some T); SetNum (Some n)] new_ts)) = Some (repeat (T / INR n) n) /\
  snd (get_tau new_ts) = Some (repeat (1 / 10) 10) /\
  snd (get_num_tslots new_ts) = Some 10%nat /\ snd (get_evo_time new_ts) = Some 1.
Proof.
  rewrite <- (Rmult_1_l T) at 2 4. repeat split.
  change (snd (get_tau new_ts)) with (Some (repeat (1 * DEF_EVO_TIME / INR 10) 10)).
  unfold DEF_EVO_TIME. rewrite Rmult_1_l. replace (INR 10) with 10 by (cbn; ring). reflexivity.
Qed.
