(** How much Model/DynUpd.v computes. *)
From Coq Require Import Reals.
From RecordUpdate Require Import RecordUpdate.
From Verif.Model Require Import Base Dyn DynUpd.
From Verif.Spec Require Import Masks.
From Verif.Proofs Require Import MaskFacts.
Local Open Scope nat_scope.
Local Set Bullet Behavior "Strict Subproofs".

Lemma total_S : forall n m, total (S n) m = total n m + (if m n then 1 else 0).
Proof.
  intros n m. unfold total, count, range. rewrite seq_S, map_app, filter_app, app_length. cbn.
  destruct (m n); reflexivity.
Qed.
Lemma total_le : forall n m m', (forall i, i < n -> m i = true -> m' i = true) -> total n m <= total n m'.
Proof.
  induction n as [|n IH]; intros m m' H; [reflexivity|]. rewrite !total_S.
  specialize (IH m m' (fun i Hi => H i (Nat.lt_lt_succ_r _ _ Hi))).
  specialize (H n (Nat.lt_succ_diag_r n)). destruct (m n); [rewrite H by auto; lia|]. destruct (m' n); lia.
Qed.
Lemma total_split : forall n m now r, (forall i, i < n -> now i = true -> m i = true) ->
  (forall i, i < n -> r i = m i && negb (now i)) -> total n r + total n now = total n m.
Proof.
  induction n as [|n IH]; intros m now r H1 H2; [reflexivity|]. rewrite !total_S.
  specialize (IH m now r (fun i Hi => H1 i (Nat.lt_lt_succ_r _ _ Hi)) (fun i Hi => H2 i (Nat.lt_lt_succ_r _ _ Hi))).
  specialize (H1 n (Nat.lt_succ_diag_r n)). rewrite (H2 n (Nat.lt_succ_diag_r n)).
  destruct (now n); [rewrite H1 by auto; cbn; lia|]. destruct (m n); cbn; lia.
Qed.
Lemma total_or : forall n m r, total n (fun k => m k || r k) <= total n m + total n r.
Proof.
  induction n as [|n IH]; intros m r; [cbn; lia|]. rewrite !total_S. specialize (IH m r).
  destruct (m n), (r n); cbn; lia.
Qed.
Lemma total_list : forall l, total (length l) (fun k => nth k l false) = count l.
Proof.
  intros l. unfold total, range. f_equal.
  induction l as [|b l IH]; auto. cbn. f_equal. rewrite <- seq_shift, map_map. exact IH.
Qed.
Lemma total_all : forall n, total n (fun _ => true) = n.
Proof. induction n as [|n IH]; [reflexivity|]. rewrite total_S, IH. lia. Qed.

Section Counts.
Context {A : Alg}.
Variable cgen : option (nat -> list R -> Res (Op A)).
Variable cprop : option (nat -> Op A -> Res (Op A)).
Variable initial targ : Op A.
Notation du := (du A).

(** Slots without any amplitude never count as changed. *)
Definition empty_row (r : list R) : bool := match r with [] => true | _ => false end.
Definition spare (n : nat) (s : du) : nat :=
  match u_amps s with None => n | Some a => count (map empty_row a) end.
Definition counted (n : nat) (s : du) : Prop := forall st, u_stats s = Some st ->
  num_dyn_gen_computes st + total n (rg s) <= spare n s + num_timeslot_changes (base st) /\
  num_prop_computes st + total n (rp s) <= spare n s + num_timeslot_changes (base st).

Lemma total_bound : forall n m, total n m <= n.
Proof. intros n m. rewrite <- (total_all n) at 2. apply total_le. auto. Qed.
Lemma neq_rows_empty : forall x y r, neq_row x y = Ok r -> empty_row y = empty_row x.
Proof. intros [|u x] [|v y] r H; auto; discriminate. Qed.
Lemma neq_amps_empty : forall x y ch, neq_amps x y = Ok ch -> map empty_row y = map empty_row x.
Proof.
  induction x as [|u x IH]; intros [|v y] ch H; cbn in H; try discriminate; auto.
  destruct (neq_row u v) as [r|] eqn:Er; [|discriminate]. cbn in H.
  destruct (neq_amps x y) as [rs|] eqn:E; [|discriminate]. cbn.
  rewrite (neq_rows_empty _ _ _ Er), (IH _ _ E). reflexivity.
Qed.
Lemma count_all_true : forall new : amps,
  count (map any (map (map (fun _ => true)) new)) + count (map empty_row new) = length new.
Proof.
  unfold count. induction new as [|r new IH]; auto.
  destruct r; cbn in *; lia.
Qed.

Lemma compare_count : forall n s new s' b,
  sound cgen cprop initial targ n (amps_of s) s -> compare new s = Ok (s', b) -> counted n s -> counted n s'.
Proof.
  intros n s new s' b Hs He Hc. assert (Hn : u_n s = n) by apply Hs. unfold compare in He.
  destruct (match u_amps s with Some old => neq_amps old new | None => _ end) as [ch|] eqn:Ech; [|discriminate].
  cbn [bind] in He. destruct (any (map any ch)); [|injection He as <- <-; auto].
  destruct (length (map any ch) =? u_n s) eqn:El; [|discriminate]. apply Nat.eqb_eq in El.
  cbn -[first_last range count Nat.add] in He.
  destruct (first_last _ _) as [[f|] l]; [|discriminate He].
  unfold counted, spare in *. destruct (u_stats s) as [st|] eqn:Es.
  2: { injection He as <- <-. intros st' Hst. cbn in Hst. congruence. }
  injection He as <- <-. intros st' Hst. cbn -[count Nat.add total] in Hst. injection Hst as <-.
  cbn -[count Nat.add total]. destruct (Hc _ eq_refl) as [H1 H2]. clear Hc.
  assert (E : total n (fun k => nth k (map any ch) false) = count (map any ch)).
  { rewrite <- Hn, <- El. apply total_list. }
  destruct (u_amps s) as [old|] eqn:Ea.
  - rewrite (neq_amps_empty _ _ _ Ech).
    pose proof (total_or n (fun k => nth k (map any ch) false) (rg s)).
    pose proof (total_or n (fun k => nth k (map any ch) false) (rp s)).
    rewrite E in *. lia.
  - destruct Hs as (_ & S2 & _ & S4 & S5 & _). unfold amps_of in *. rewrite Ea in *.
    assert (T1 : total n (rg s) = n).
    { rewrite <- (total_all n) at 2. apply Nat.le_antisymm; apply total_le; auto.
      intros i Hi _. destruct (rg s i) eqn:Er; auto.
      destruct (S4 i Hi Er) as (g & _ & f' & row & _ & Hr & _). destruct i; discriminate. }
    assert (T2 : total n (rp s) = n).
    { rewrite <- (total_all n) at 2. apply Nat.le_antisymm; apply total_le; auto.
      intros i Hi _. destruct (rp s i) eqn:Er; auto.
      destruct (S5 i Hi Er) as (g & _ & f' & g' & _ & (f'' & row & _ & Hr & _) & _). destruct i; discriminate. }
    injection Ech as <-. rewrite map_length, map_length in El.
    pose proof (count_all_true new).
    pose proof (total_bound n (fun k => nth k (map any (map (map (fun _ => true)) new)) false || rg s k)).
    pose proof (total_bound n (fun k => nth k (map any (map (map (fun _ => true)) new)) false || rp s k)).
    lia.
Qed.

Lemma spare_eq : forall n s t, u_amps t = u_amps s -> spare n t = spare n s.
Proof. intros n s t H. unfold spare. now rewrite H. Qed.
Lemma recompute_count : forall n a s r e, sound cgen cprop initial targ n a s ->
  recompute cgen cprop s = (r, e) -> counted n s -> counted n r.
Proof.
  intros n a s r e Hs He Hc. assert (Hn : u_n s = n) by apply Hs.
  assert (H0 : rf s 0 = false) by apply Hs. assert (HN : ro s n = false) by apply Hs.
  unfold recompute in He. rewrite Hn in He. cbv zeta in He.
  set (f_now := back_closure n (rf s) (fun k => nf s k && rf s k)) in *.
  set (o_now := fore_closure n (ro s) (fun k => no s k && ro s k)) in *.
  set (g_now := fun k => ((f_now (S k) || o_now k || np s k) && rp s k || ng s k) && rg s k) in He.
  set (p_now := fun k => (f_now (S k) || o_now k || np s k) && rp s k) in He.
  destruct (back_spec n (rf s) (fun k => nf s k && rf s k)) as (F1 & F2 & _ & F4). fold f_now in F1, F2, F4.
  destruct (fore_spec n (ro s) (fun k => no s k && ro s k)) as (O1 & O2 & O3). fold o_now in O1, O2, O3.
  assert (F0 : f_now 0 = false).
  { destruct (f_now 0) eqn:E; auto. destruct (F2 _ E) as [H|H]; [apply andb_prop in H as [_ H]|]; congruence. }
  destruct (each (range n) (gen_body cgen g_now) s) as [s1 e1] eqn:E1.
  destruct (gen_phase _ _ _ _ _ _ _ _ _ _ E1 Hs) as (G1 & G2 & G3 & G4 & G5 & G6 & G7 & _).
  destruct G2 as (_ & GA & _ & _ & _ & _ & _ & G2).
  assert (L1 : total n (rg s1) <= total n (rg s)).
  { apply total_le. intros i _. destruct (rg s i) eqn:E; auto. rewrite G6; auto. }
  destruct e1 as [e1|]; cbn [and_then] in He.
  { injection He as <- <-. intros st Hst. rewrite G2 in Hst. destruct (Hc _ Hst). rewrite G3, (spare_eq n s s1 GA). lia. }
  specialize (G7 eq_refl).
  assert (T1 : total n (rg s1) + total n g_now = total n (rg s)).
  { apply total_split; auto. intros i _. unfold g_now. intros H. now apply andb_prop in H. }
  set (s1' := count_in _ s1) in *.
  assert (C1 : counted n s1').
  { intros st Hst. unfold s1', count_in in Hst. cbn -[total Nat.add spare] in Hst. rewrite G2 in Hst.
    destruct (u_stats s) as [st0|] eqn:Es; [|discriminate]. injection Hst as <-.
    destruct (Hc _ Es). cbn -[total Nat.add spare]. rewrite G3.
    rewrite (spare_eq n s s1' GA). lia. }
  destruct (each (range n) (prop_body cprop p_now) s1') as [s2 e2] eqn:E2.
  destruct (prop_phase cgen cprop initial targ n a _ _ _ _ E2 (sound_count _ _ _ _ _ _ _ _ G1)) as (P1 & P2 & P3 & P4 & P5 & P6 & P7 & _).
  { intros k Hk Hp. change (rg s1' k) with (rg s1 k). rewrite G7 by auto. unfold g_now. unfold p_now in Hp. rewrite Hp. cbn. now destruct (rg s k). }
  destruct P2 as (_ & PA & _ & _ & _ & _ & _ & P2).
  assert (L2 : total n (rp s2) <= total n (rp s1')).
  { apply total_le. intros i _. destruct (rp s1' i) eqn:E; auto. rewrite P6; auto. }
  destruct e2 as [e2|]; cbn [and_then] in He.
  { injection He as <- <-. intros st Hst. rewrite P2 in Hst. destruct (C1 _ Hst). rewrite P3, (spare_eq n s1' s2 PA). lia. }
  specialize (P7 eq_refl).
  assert (T2 : total n (rp s2) + total n p_now = total n (rp s1')).
  { apply total_split; auto. intros i _. unfold p_now. change (rp s1') with (rp s1). rewrite G3. intros H. now apply andb_prop in H. }
  set (s2' := count_in _ s2) in *.
  assert (C2 : counted n s2').
  { intros st Hst. unfold s2', count_in in Hst. cbn -[total Nat.add spare] in Hst. rewrite P2 in Hst.
    destruct (u_stats s1') as [st0|] eqn:Es; [|discriminate]. injection Hst as <-.
    destruct (C1 _ Es). cbn -[total Nat.add spare]. rewrite P3.
    rewrite (spare_eq n s1' s2' PA). lia. }
  destruct (each (seq 1 n) (fwd_body f_now) s2') as [s3 e3] eqn:E3.
  destruct (fwd_phase cgen cprop initial targ n a _ _ _ _ E3 (sound_count _ _ _ _ _ _ _ _ P1)) as (W1 & W2 & W3 & W4 & W5 & W6 & W7 & _); auto.
  { intros k Hk Hp. change (rp s2' k) with (rp s2 k). rewrite P7 by auto. change (rp s1' k) with (rp s1 k). rewrite G3. unfold p_now. rewrite Hp. cbn. now destruct (rp s k). }
  { intros k Hk Hf Hr. change (rf s2' k) with (rf s2 k) in Hr. rewrite P4 in Hr. change (rf s1' k) with (rf s1 k) in Hr. rewrite G4 in Hr.
    replace k with (S k - 1) by lia. apply F4; auto; [lia|]. now replace (S k - 1) with k by lia. }
  destruct W2 as (_ & WA & _ & _ & _ & _ & _ & W2).
  assert (C3 : counted n s3).
  { intros st Hst. rewrite W2 in Hst. destruct (C2 _ Hst). rewrite W3, W4, (spare_eq n s2' s3 WA). lia. }
  destruct e3 as [e3|]; cbn [and_then] in He; [now injection He as <- <-|].
  set (s3' := count_in _ s3) in *.
  assert (C3' : counted n s3').
  { intros st Hst. unfold s3', count_in in Hst. cbn -[total Nat.add spare] in Hst.
    destruct (u_stats s3) as [st0|] eqn:Es; [|discriminate]. injection Hst as <-.
    destruct (C3 _ Es). cbn -[total Nat.add spare]. rewrite (spare_eq n s3 s3' eq_refl). lia. }
  destruct (each (range_down n) (onto_body o_now) s3') as [s4 e4] eqn:E4.
  destruct (onto_phase cgen cprop initial targ n a _ _ _ _ E4 (sound_count _ _ _ _ _ _ _ _ W1)) as (Z1 & Z2 & Z3 & Z4 & Z5 & Z6 & Z7 & _); auto.
  { intros k Hk Hp. change (rp s3' k) with (rp s3 k). rewrite W4. change (rp s2' k) with (rp s2 k). rewrite P7 by auto. change (rp s1' k) with (rp s1 k). rewrite G3. unfold p_now. rewrite Hp, orb_true_r. cbn. now destruct (rp s k). }
  { intros k Hk Hf Hr. change (ro s3' (S k)) with (ro s3 (S k)) in Hr. rewrite W5 in Hr. change (ro s2' (S k)) with (ro s2 (S k)) in Hr. rewrite P5 in Hr. change (ro s1' (S k)) with (ro s1 (S k)) in Hr. rewrite G5 in Hr. apply O3; auto. }
  destruct Z2 as (_ & ZA & _ & _ & _ & _ & _ & Z2).
  assert (C4 : counted n s4).
  { intros st Hst. rewrite Z2 in Hst. destruct (C3' _ Hst). rewrite Z3, Z4, (spare_eq n s3' s4 ZA). lia. }
  destruct e4 as [e4|]; cbn [and_then] in He; [now injection He as <- <-|].
  injection He as <- <-. intros st Hst. cbn -[total Nat.add spare] in Hst.
  destruct (u_stats s4) as [st0|] eqn:Es; [|discriminate]. injection Hst as <-.
  destruct (C4 _ Es). split; assumption.
Qed.

Lemma step_count : forall n o s, sound cgen cprop initial targ n (amps_of s) s -> counted n s -> counted n (ustep cgen cprop o s).
Proof.
  intros n o s Hs Hc. assert (Hn : u_n s = n) by apply Hs. destruct o; cbn [ustep].
  - destruct (compare a s) as [[s' b]|] eqn:E; auto. eapply compare_count; eauto.
  - exact Hc.
  - unfold get_timeslot. destruct (find_slot _ _ _); exact Hc.
  - destruct (recompute cgen cprop s) as [r e] eqn:E. cbn [fst]. eapply recompute_count; eauto.
  - unfold compute_evo. destruct (u_cur s); auto.
    destruct (recompute cgen cprop s) as [r e] eqn:E.
    pose proof (recompute_count _ _ _ _ _ Hs E Hc) as H. destruct e; cbn [and_then fst]; exact H.
Qed.
Lemma history_count : forall n st l,
  num_dyn_gen_computes st <= num_timeslot_changes (base st) -> num_prop_computes st <= num_timeslot_changes (base st) ->
  counted n (uruns cgen cprop l (init_comp n initial targ (Some st))).
Proof.
  intros n st l H1 H2.
  assert (H : sound cgen cprop initial targ n (amps_of (init_comp n initial targ (Some st))) (init_comp n initial targ (Some st)))
    by apply sound_init.
  assert (H' : counted n (init_comp n initial targ (Some st))).
  { intros st' [= <-]. cbn -[total]. rewrite total_all. lia. }
  revert H H'. generalize (init_comp n initial targ (Some st)). induction l as [|o l IH]; intros s H H'; auto.
  cbn. apply IH; [now apply step_sound|now apply step_count].
Qed.

(** Nothing marked, nothing done. *)
Lemma each_id : forall l (now : nat -> bool) (body : nat -> du -> Res du) s,
  (forall k s, now k = false -> body k s = Ok s) -> (forall k, In k l -> now k = false) ->
  each l body s = (s, None).
Proof.
  induction l as [|k l IH]; intros now body s Hb Hn; auto. cbn.
  rewrite Hb by (apply Hn; now left). eapply IH; eauto. intros; apply Hn; now right.
Qed.
Lemma total_none : forall n m, (forall i, i < n -> m i = false) -> total n m = 0.
Proof.
  induction n as [|n IH]; intros m H; auto. rewrite total_S, IH by (intros; apply H; lia). now rewrite H by lia.
Qed.
Lemma recompute_idle : forall s : du,
  (forall k, k < u_n s -> rg s k = false /\ rp s k = false) -> (forall k, k <= u_n s -> rf s k = false /\ ro s k = false) ->
  recompute cgen cprop s
  = (s <| ng := fun _ => false |> <| np := fun _ => false |> <| nf := fun _ => false |> <| no := fun _ => false |>, None).
Proof.
  intros s H1 H2. unfold recompute. cbv zeta. set (n := u_n s) in *.
  destruct (back_spec n (rf s) (fun k => nf s k && rf s k)) as (_ & F2 & _ & _).
  destruct (fore_spec n (ro s) (fun k => no s k && ro s k)) as (_ & O2 & _).
  set (f_now := back_closure n (rf s) (fun k => nf s k && rf s k)) in *.
  set (o_now := fore_closure n (ro s) (fun k => no s k && ro s k)) in *.
  assert (F : forall k, k <= n -> f_now k = false).
  { intros k Hk. destruct (f_now k) eqn:E; auto. destruct (H2 k Hk) as [Hf _].
    destruct (F2 _ E) as [H|H]; [apply andb_prop in H as [_ H]|]; congruence. }
  assert (O : forall k, k <= n -> o_now k = false).
  { intros k Hk. destruct (o_now k) eqn:E; auto. destruct (H2 k Hk) as [_ Hf].
    destruct (O2 _ E) as [H|H]; [apply andb_prop in H as [_ H]|]; congruence. }
  set (g_now := fun k => ((f_now (S k) || o_now k || np s k) && rp s k || ng s k) && rg s k).
  set (p_now := fun k => (f_now (S k) || o_now k || np s k) && rp s k).
  assert (G : forall k, k < n -> g_now k = false) by (intros k Hk; unfold g_now; destruct (H1 k Hk) as [-> _]; apply andb_false_r).
  assert (P : forall k, k < n -> p_now k = false) by (intros k Hk; unfold p_now; destruct (H1 k Hk) as [_ ->]; apply andb_false_r).
  rewrite (total_none n g_now), (total_none n p_now), (total_none (S n) f_now), (total_none (S n) o_now) by (intros; auto; try apply F; try apply O; lia).
  rewrite (each_id _ g_now); [|intros k t Hk; unfold gen_body; now rewrite Hk|intros k Hk; apply in_seq in Hk; apply G; lia].
  cbn [and_then].
  rewrite (each_id _ p_now); [|intros k t Hk; unfold prop_body; now rewrite Hk|intros k Hk; apply in_seq in Hk; apply P; lia].
  cbn [and_then].
  rewrite (each_id _ f_now); [|intros k t Hk; unfold fwd_body; now rewrite Hk|intros k Hk; apply in_seq in Hk; apply F; lia].
  cbn [and_then].
  rewrite (each_id _ o_now); [|intros k t Hk; unfold onto_body; now rewrite Hk|intros k Hk; apply in_rev in Hk; apply in_seq in Hk; apply O; lia].
  cbn [and_then]. clear. destruct s as [? ? ? ? ? ? ? ? ? ? ? ? ? ? ? [[]|]]; reflexivity.
Qed.

(** Without the method that computes a generator. *)
Lemma each_missing : forall (s : du) n now, (exists k, k < n /\ now k = true) ->
  each (range n) (gen_body None now) s = (s, Some AttributeError).
Proof.
  intros s n now (k & Hk & Hn). assert (Hin : In k (range n)) by (apply in_seq; lia).
  revert Hin. generalize (range n). induction l as [|i l IH]; intros Hin; [destruct Hin|].
  cbn [each]. unfold gen_body at 1. destruct (now i) eqn:E; [reflexivity|].
  destruct Hin as [->|Hin]; [congruence|]. now apply IH.
Qed.
Lemma recompute_missing : forall (s : du),
  (exists k, k < u_n s /\ rg s k = true /\ (ng s k = true \/ rp s k = true /\ (np s k = true \/ no s k = true /\ ro s k = true))) ->
  recompute None cprop s = (s, Some AttributeError).
Proof.
  intros s (k & Hk & Hg & H). unfold recompute. cbv zeta. rewrite each_missing; [reflexivity|].
  exists k. split; auto. rewrite Hg, andb_true_r.
  destruct H as [->|(Hp & H)]; [apply orb_true_r|].
  destruct H as [->|(H1 & H2)]; [rewrite Hp, !orb_true_r; reflexivity|].
  destruct (fore_spec (u_n s) (ro s) (fun k => no s k && ro s k)) as (O1 & _ & _).
  rewrite O1 by (now rewrite H1, H2). rewrite Hp, !orb_true_r. reflexivity.
Qed.
End Counts.
