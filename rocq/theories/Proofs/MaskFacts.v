(** The bookkeeping of Model/DynUpd.v. *)
From Coq Require Import Reals.
From RecordUpdate Require Import RecordUpdate.
From Verif.Model Require Import Base Dyn DynUpd.
From Verif.Spec Require Import Masks.
Local Open Scope nat_scope.
Local Set Bullet Behavior "Strict Subproofs".
Ltac splits := repeat match goal with |- _ /\ _ => split end.

Lemma put_eq : forall X k (v : X) f, put k v f k = v.
Proof. intros. unfold put. now rewrite Nat.eqb_refl. Qed.
Lemma put_neq : forall X k (v : X) f i, i <> k -> put k v f i = f i.
Proof. intros. unfold put. now apply Nat.eqb_neq in H as ->. Qed.

Lemma first_last_spec : forall n m,
  match first_last n m with
  | (None, _) => forall i, i < n -> m i = false
  | (Some f, l) => f < n /\ l < n /\ m f = true /\ m l = true
                   /\ (forall i, i < n -> m i = true -> f <= i /\ i <= l)
  end.
Proof.
  intros n m. unfold first_last, range.
  induction n as [|n IH]; [cbn; lia|].
  rewrite seq_S, fold_left_app. cbn [fold_left plus].
  destruct (fold_left _ _ _) as [f l].
  destruct (m n) eqn:En; destruct f as [f|].
  - destruct IH as (H1 & H2 & H3 & H4 & H5). splits; try lia; auto.
    intros i Hi Hm. destruct (Nat.eq_dec i n) as [->|Hn]; [lia|]. destruct (H5 i); auto; lia.
  - splits; try lia; auto. intros i Hi Hm. destruct (Nat.eq_dec i n) as [->|Hn]; [lia|].
    rewrite IH in Hm by lia. discriminate.
  - destruct IH as (H1 & H2 & H3 & H4 & H5). splits; try lia; auto.
    intros i Hi Hm. destruct (Nat.eq_dec i n) as [->|Hn]; [congruence|]. apply H5; auto; lia.
  - intros i Hi. destruct (Nat.eq_dec i n) as [->|Hn]; [congruence|]. apply IH; lia.
Qed.

Lemma back_spec : forall n re now, let c := back_closure n re now in
  (forall k, now k = true -> c k = true) /\
  (forall k, c k = true -> now k = true \/ re k = true) /\
  (forall k, n <= k -> c k = now k) /\
  (forall k, 1 <= k <= n -> c k = true -> re (k - 1) = true -> c (k - 1) = true).
Proof.
  induction n as [|n IH]; intros re now.
  - cbn. splits; auto. intros; lia.
  - assert (E : back_closure (S n) re now
                = back_closure n re (if now (S n) && re n then put n true now else now)).
    { unfold back_closure. rewrite seq_S, rev_app_distr. cbn [rev app fold_left plus].
      replace (S n - 1) with n by lia. reflexivity. }
    cbv zeta. rewrite E. clear E.
    set (now' := if now (S n) && re n then put n true now else now).
    destruct (IH re now') as (H1 & H2 & H3 & H4).
    assert (N1 : forall k, now k = true -> now' k = true).
    { intros k Hk. unfold now'. destruct (now (S n) && re n); auto. unfold put. destruct (k =? n); auto. }
    assert (N2 : forall k, now' k = true -> now k = true \/ re k = true).
    { intros k Hk. unfold now' in Hk. destruct (now (S n) && re n) eqn:E; auto.
      unfold put in Hk. destruct (k =? n) eqn:Ek; auto. apply Nat.eqb_eq in Ek. subst.
      apply andb_prop in E. tauto. }
    assert (N3 : forall k, k <> n -> now' k = now k).
    { intros k Hk. unfold now'. destruct (now (S n) && re n); auto. now apply put_neq. }
    splits.
    + auto.
    + intros k Hk. destruct (H2 _ Hk) as [Hk'|]; auto.
    + intros k Hk. rewrite H3 by lia. apply N3. lia.
    + intros k Hk Hc Hr. destruct (Nat.eq_dec k (S n)) as [->|Hn].
      * replace (S n - 1) with n in * by lia. apply H1. rewrite H3, N3 in Hc by lia.
        unfold now'. rewrite Hc, Hr. cbn. apply put_eq.
      * apply H4; auto; lia.
Qed.

Lemma fore_spec : forall n re now, let c := fore_closure n re now in
  (forall k, now k = true -> c k = true) /\
  (forall k, c k = true -> now k = true \/ re k = true) /\
  (forall k, k < n -> c k = true -> re (S k) = true -> c (S k) = true).
Proof.
  induction n as [|n IH]; intros re now.
  - cbn. splits; auto. intros; lia.
  - assert (E : fore_closure (S n) re now
                = let c := fore_closure n re now in if c n && re (n + 1) then put (n + 1) true c else c).
    { unfold fore_closure, range. rewrite seq_S, fold_left_app. reflexivity. }
    cbv zeta in *. rewrite E. clear E.
    destruct (IH re now) as (H1 & H2 & H3). set (c := fore_closure n re now) in *.
    replace (n + 1) with (S n) by lia.
    destruct (c n && re (S n)) eqn:E.
    + apply andb_prop in E as [E1 E2]. splits.
      * intros k Hk. unfold put. destruct (k =? S n); auto.
      * intros k Hk. unfold put in Hk. destruct (k =? S n) eqn:Ek; auto.
        apply Nat.eqb_eq in Ek. subst. auto.
      * intros k Hk Hc Hr. unfold put in *. destruct (S k =? S n) eqn:Ek; auto.
        apply Nat.eqb_neq in Ek. destruct (k =? S n) eqn:Ek'; [apply Nat.eqb_eq in Ek'; lia|].
        apply H3; auto; lia.
    + splits; auto. intros k Hk Hc Hr. destruct (Nat.eq_dec k n) as [->|Hn].
      * rewrite Hc, Hr in E. discriminate.
      * apply H3; auto; lia.
Qed.

(** Loops. *)
Section Facts.
Context {A : Alg}.
Variable cgen : option (nat -> list R -> Res (Op A)).
Variable cprop : option (nat -> Op A -> Res (Op A)).
Variable initial targ : Op A.
Notation du := (du A).

Lemma each_up : forall n a (P : nat -> du -> Prop) body s r e,
  P a s ->
  (forall k s s', a <= k < a + n -> P k s -> body k s = Ok s' -> P (S k) s') ->
  each (seq a n) body s = (r, e) ->
  (e = None /\ P (a + n) r) \/ (e <> None /\ exists k, P k r /\ a <= k < a + n /\ forall x, e = Some x -> body k r = Raise x).
Proof.
  induction n as [|n IH]; intros a P body s r e Ha Hs He.
  - cbn in He. injection He as <- <-. left. now rewrite Nat.add_0_r.
  - cbn [seq each] in He. destruct (body a s) as [s'|x] eqn:E.
    + replace (a + S n) with (S a + n) by lia.
      assert (H : (e = None /\ P (S a + n) r) \/ (e <> None /\ exists k, P k r /\ S a <= k < S a + n /\ forall x, e = Some x -> body k r = Raise x)).
      { eapply IH; [| |exact He].
        * eapply Hs; [|exact Ha|exact E]. lia.
        * intros k t t' Hk. apply Hs. lia. }
      destruct H as [H|(H1 & k & H2 & H3 & H4)]; auto. right. split; auto. exists k. splits; auto; lia.
    + injection He as <- <-. right. split; [discriminate|]. exists a. splits; auto; try lia. intros y [= <-]. auto.
Qed.
Lemma each_down : forall n (P : nat -> du -> Prop) body s r e,
  P n s ->
  (forall k s s', k < n -> P (S k) s -> body k s = Ok s' -> P k s') ->
  each (range_down n) body s = (r, e) ->
  (e = None /\ P 0 r) \/ (e <> None /\ exists k, P (S k) r /\ k < n /\ forall x, e = Some x -> body k r = Raise x).
Proof.
  unfold range_down. induction n as [|n IH]; intros P body s r e Ha Hs He.
  - cbn in He. injection He as <- <-. auto.
  - rewrite seq_S, rev_app_distr in He. cbn [rev app each plus] in He. destruct (body n s) as [s'|x] eqn:E.
    + assert (H : (e = None /\ P 0 r) \/ (e <> None /\ exists k, P (S k) r /\ k < n /\ forall x, e = Some x -> body k r = Raise x)).
      { eapply IH; [| |exact He].
        * eapply Hs; [|exact Ha|exact E]. lia.
        * intros k t t' Hk. apply Hs. lia. }
      destruct H as [H|(H1 & k & H2 & H3 & H4)]; auto. right. split; auto. exists k. splits; auto.
    + injection He as <- <-. right. split; [discriminate|]. exists n. splits; auto. intros y [= <-]. auto.
Qed.

Definition amps_of (s : du) : amps := match u_amps s with Some a => a | None => [] end.
(** Everything not marked is current. *)
Definition sound (n : nat) (a : amps) (s : du) : Prop :=
  u_n s = n /\ amps_of s = a /\ (forall o, u_amps s = Some o -> length o = n) /\
  (forall k, k < n -> rg s k = false -> exists g, u_gen s k = Some g /\ is_gen cgen a k g) /\
  (forall k, k < n -> rp s k = false -> exists p, u_prop s k = Some p /\ is_prop cgen cprop a k p) /\
  (forall k, k <= n -> rf s k = false -> exists x, u_fwd s k = Some x /\ is_fwd cgen cprop initial a k x) /\
  (forall k, k <= n -> ro s k = false -> exists x, u_onto s k = Some x /\ is_onto cgen cprop targ n a k x) /\
  rf s 0 = false /\ ro s n = false.

Lemma sound_init : forall n st, sound n [] (init_comp n initial targ st).
Proof.
  intros n st. unfold sound, amps_of, init_comp; cbn. splits; try discriminate; auto.
  - intros k Hk H. unfold put in *. destruct (k =? 0) eqn:E; [|discriminate].
    apply Nat.eqb_eq in E. subst. exists initial. cbn. auto.
  - intros k Hk H. unfold put in *. destruct (k =? n) eqn:E; [|discriminate].
    apply Nat.eqb_eq in E. subst. exists targ. unfold is_onto. rewrite Nat.sub_diag. cbn. auto.
  - apply put_eq.
Qed.

Lemma gen_step : forall n a now k s s',
  k < n -> gen_body cgen now k s = Ok s' -> sound n a s -> sound n a s'.
Proof.
  intros n a now k s s' Hk He (H1 & H2 & H3 & H4 & H5 & H6 & H7 & H8 & H9).
  unfold gen_body in He. destruct (now k); [|now injection He as <-].
  assert (Ef : exists f, cgen = Some f) by (destruct cgen; [eauto|discriminate]). destruct Ef as [f Ef].
  rewrite Ef in He. cbn [call bind] in He.
  destruct (u_amps s) as [a0|] eqn:Ea; [|discriminate]. cbn [some_or bind] in He.
  unfold get in He. destruct (nth_error a0 k) as [row|] eqn:Er; [|discriminate]. cbn [bind] in He.
  destruct (f k row) as [g|] eqn:Eg; [|discriminate]. cbn [bind] in He. injection He as <-.
  unfold sound, amps_of in *; cbn in *. rewrite Ea in *. subst a0. splits; auto.
  intros i Hi. unfold put. destruct (i =? k) eqn:E; [|auto]. apply Nat.eqb_eq in E. subst. intros _.
  exists g. split; auto. unfold is_gen. eauto.
Qed.
Lemma prop_step : forall n a now k s s',
  k < n -> prop_body cprop now k s = Ok s' -> (now k = true -> rg s k = false) -> sound n a s -> sound n a s'.
Proof.
  intros n a now k s s' Hk He Hg (H1 & H2 & H3 & H4 & H5 & H6 & H7 & H8 & H9).
  unfold prop_body in He. destruct (now k); [|now injection He as <-].
  assert (Ef : exists f, cprop = Some f) by (destruct cprop; [eauto|discriminate]). destruct Ef as [f Ef].
  rewrite Ef in He. cbn [call bind] in He.
  destruct (H4 k Hk (Hg eq_refl)) as (g & Eg & Hg'). rewrite Eg in He. cbn [filled bind] in He.
  destruct (f k g) as [p|] eqn:Ep; [|discriminate]. cbn [bind] in He. injection He as <-.
  unfold sound, amps_of in *; cbn in *. splits; auto.
  intros i Hi. unfold put. destruct (i =? k) eqn:E; [|auto]. apply Nat.eqb_eq in E. subst i. intros _.
  exists p. split; auto. unfold is_prop. eauto 6.
Qed.
Lemma fwd_step : forall n a now k s s',
  1 <= k <= n -> fwd_body now k s = Ok s' ->
  (now k = true -> rp s (k - 1) = false /\ rf s (k - 1) = false) -> sound n a s -> sound n a s'.
Proof.
  intros n a now k s s' Hk He Hg (H1 & H2 & H3 & H4 & H5 & H6 & H7 & H8 & H9).
  unfold fwd_body in He. destruct (now k); [|now injection He as <-].
  destruct (Hg eq_refl) as [Hp Hf].
  destruct (H5 (k - 1)) as (p & Ep & Hp'); [lia|auto|]. destruct (H6 (k - 1)) as (x & Ex & Hx); [lia|auto|].
  rewrite Ep, Ex in He. cbn [filled bind] in He. injection He as <-.
  unfold sound, amps_of in *; cbn in *. splits; auto.
  - intros i Hi. unfold put. destruct (i =? k) eqn:E; [|auto]. apply Nat.eqb_eq in E. subst i. intros _.
    exists (omul A p x). split; auto. destruct k as [|k]; [lia|]. cbn. replace (S k - 1) with k in * by lia. eauto 6.
  - unfold put. destruct (0 =? k); auto.
Qed.
Lemma onto_step : forall n a now k s s',
  k < n -> onto_body now k s = Ok s' ->
  (now k = true -> rp s k = false /\ ro s (S k) = false) -> sound n a s -> sound n a s'.
Proof.
  intros n a now k s s' Hk He Hg (H1 & H2 & H3 & H4 & H5 & H6 & H7 & H8 & H9).
  unfold onto_body in He. destruct (now k); [|now injection He as <-].
  destruct (Hg eq_refl) as [Hp Hf]. replace (k + 1) with (S k) in He by lia.
  destruct (H5 k) as (p & Ep & Hp'); [lia|auto|]. destruct (H7 (S k)) as (x & Ex & Hx); [lia|auto|].
  rewrite Ep, Ex in He. cbn [filled bind] in He. injection He as <-.
  unfold sound, amps_of in *; cbn in *. splits; auto.
  - intros i Hi. unfold put. destruct (i =? k) eqn:E; [|auto]. apply Nat.eqb_eq in E. subst i. intros _.
    exists (omul A x p). split; auto. unfold is_onto in *. replace (n - k) with (S (n - S k)) by lia. cbn. eauto 6.
  - unfold put. destruct (n =? k); auto.
Qed.

(** What a loop leaves alone. *)
Definition frame (s t : du) : Prop :=
  u_n t = u_n s /\ u_amps t = u_amps s /\ u_cur t = u_cur s /\
  ng t = ng s /\ np t = np s /\ nf t = nf s /\ no t = no s /\ u_stats t = u_stats s.
Lemma frame_refl : forall s, frame s s.
Proof. unfold frame; tauto. Qed.
Lemma frame_trans : forall s t u, frame s t -> frame t u -> frame s u.
Proof. unfold frame. intros s t u. intuition congruence. Qed.

Lemma body_gen : forall now k s s', gen_body cgen now k s = Ok s' ->
  frame s s' /\ rp s' = rp s /\ rf s' = rf s /\ ro s' = ro s /\
  rg s' = (if now k then put k false (rg s) else rg s).
Proof.
  intros now k s s' He. unfold gen_body in He. destruct (now k); [|injection He as <-; unfold frame; tauto].
  destruct (call cgen); [|discriminate]. cbn [bind] in He.
  destruct (some_or TypeError (u_amps s)); [|discriminate]. cbn [bind] in He.
  destruct (get a0 k); [|discriminate]. cbn [bind] in He.
  destruct (a k a1); [|discriminate]. cbn [bind] in He.
  injection He as <-. unfold frame; cbn. tauto.
Qed.
Lemma body_prop : forall now k s s', prop_body cprop now k s = Ok s' ->
  frame s s' /\ rg s' = rg s /\ rf s' = rf s /\ ro s' = ro s /\
  rp s' = (if now k then put k false (rp s) else rp s).
Proof.
  intros now k s s' He. unfold prop_body in He. destruct (now k); [|injection He as <-; unfold frame; tauto].
  destruct (call cprop); [|discriminate]. cbn [bind] in He.
  destruct (filled (u_gen s k)); [|discriminate]. cbn [bind] in He.
  destruct (a k a0); [|discriminate]. cbn [bind] in He.
  injection He as <-. unfold frame; cbn. tauto.
Qed.
Lemma body_fwd : forall now k s s', fwd_body now k s = Ok s' ->
  frame s s' /\ rg s' = rg s /\ rp s' = rp s /\ ro s' = ro s /\
  rf s' = (if now k then put k false (rf s) else rf s).
Proof.
  intros now k s s' He. unfold fwd_body in He. destruct (now k); [|injection He as <-; unfold frame; tauto].
  destruct (filled (u_prop s (k - 1))); [|discriminate]. cbn [bind] in He.
  destruct (filled (u_fwd s (k - 1))); [|discriminate]. cbn [bind] in He.
  injection He as <-. unfold frame; cbn. tauto.
Qed.
Lemma body_onto : forall now k s s', onto_body now k s = Ok s' ->
  frame s s' /\ rg s' = rg s /\ rp s' = rp s /\ rf s' = rf s /\
  ro s' = (if now k then put k false (ro s) else ro s).
Proof.
  intros now k s s' He. unfold onto_body in He. destruct (now k); [|injection He as <-; unfold frame; tauto].
  destruct (filled (u_onto s (k + 1))); [|discriminate]. cbn [bind] in He.
  destruct (filled (u_prop s k)); [|discriminate]. cbn [bind] in He.
  injection He as <-. unfold frame; cbn. tauto.
Qed.

(** Clearing the marks of [now] one after the other. *)
Lemma clear_up : forall (now re re0 : nat -> bool) k,
  (forall i, re i = re0 i && negb (now i && (i <? k))) ->
  forall i, (if now k then put k false re else re) i = re0 i && negb (now i && (i <? S k)).
Proof.
  intros now re re0 k H i. destruct (Nat.eq_dec i k) as [->|Hn].
  - replace (k <? S k) with true by (symmetry; apply Nat.ltb_lt; lia). rewrite andb_true_r.
    destruct (now k); [rewrite put_eq; now rewrite andb_false_r|].
    rewrite H, Nat.ltb_irrefl. now rewrite andb_false_r.
  - assert (E : (i <? S k) = (i <? k)).
    { destruct (i <? k) eqn:E; [apply Nat.ltb_lt; apply Nat.ltb_lt in E; lia|].
      apply Nat.ltb_ge; apply Nat.ltb_ge in E; lia. }
    rewrite E, <- H. destruct (now k); auto. now apply put_neq.
Qed.
Lemma clear_down : forall (now re re0 : nat -> bool) n k, k < n ->
  (forall i, re i = re0 i && negb (now i && ((S k <=? i) && (i <? n)))) ->
  forall i, (if now k then put k false re else re) i = re0 i && negb (now i && ((k <=? i) && (i <? n))).
Proof.
  intros now re re0 n k Hk H i. destruct (Nat.eq_dec i k) as [->|Hn].
  - rewrite Nat.leb_refl. replace (k <? n) with true by (symmetry; apply Nat.ltb_lt; lia). rewrite andb_true_r.
    destruct (now k); [rewrite put_eq; now rewrite andb_false_r|].
    rewrite H. replace (S k <=? k) with false by (symmetry; apply Nat.leb_gt; lia). now rewrite andb_false_r.
  - assert (E : (k <=? i) = (S k <=? i)).
    { destruct (S k <=? i) eqn:E; [apply Nat.leb_le; apply Nat.leb_le in E; lia|].
      apply Nat.leb_gt; apply Nat.leb_gt in E; lia. }
    rewrite E, <- H. destruct (now k); auto. now apply put_neq.
Qed.

Lemma gen_phase : forall n a now s r e,
  each (range n) (gen_body cgen now) s = (r, e) -> sound n a s ->
  sound n a r /\ frame s r /\ rp r = rp s /\ rf r = rf s /\ ro r = ro s /\
  (forall i, rg s i = false -> rg r i = false) /\
  (e = None -> forall i, i < n -> rg r i = rg s i && negb (now i)) /\
  (forall x, e = Some x -> exists k, k < n /\ now k = true /\ gen_body cgen now k r = Raise x).
Proof.
  intros n a now s r e He Hs.
  pose (P := fun k t => sound n a t /\ frame s t /\ rp t = rp s /\ rf t = rf s /\ ro t = ro s /\
                        forall i, rg t i = rg s i && negb (now i && (i <? k))).
  assert (H : (e = None /\ P (0 + n) r) \/ (e <> None /\ exists k, P k r /\ 0 <= k < 0 + n /\ forall x, e = Some x -> gen_body cgen now k r = Raise x)).
  { eapply each_up; [| |exact He].
    - unfold P. splits; auto using frame_refl. intros i. replace (i <? 0) with false by (symmetry; apply Nat.ltb_ge; lia).
      now rewrite andb_false_r, andb_true_r.
    - intros k t t' Hk (S1 & S2 & S3 & S4 & S5 & S6) Hb.
      destruct (body_gen _ _ _ _ Hb) as (B1 & B2 & B3 & B4 & B5). unfold P. splits; try congruence.
      + eapply gen_step; [|exact Hb|exact S1]. lia.
      + eapply frame_trans; eauto.
      + rewrite B5. now apply clear_up. }
  cbn [plus] in H.
  destruct H as [(E & S1 & S2 & S3 & S4 & S5 & S6)|(E & k & (S1 & S2 & S3 & S4 & S5 & S6) & Hk & Hb)]; splits; auto.
  - intros i Hi. now rewrite S6, Hi.
  - intros _ i Hi. rewrite S6. apply Nat.ltb_lt in Hi. now rewrite Hi, andb_true_r.
  - intros x Hx. congruence.
  - intros i Hi. now rewrite S6, Hi.
  - tauto.
  - intros x Hx. specialize (Hb x Hx). exists k. splits; [lia| |auto].
    destruct (now k) eqn:En; auto. unfold gen_body in Hb. rewrite En in Hb. discriminate.
Qed.
Lemma prop_phase : forall n a now s r e,
  each (range n) (prop_body cprop now) s = (r, e) -> sound n a s ->
  (forall k, k < n -> now k = true -> rg s k = false) ->
  sound n a r /\ frame s r /\ rg r = rg s /\ rf r = rf s /\ ro r = ro s /\
  (forall i, rp s i = false -> rp r i = false) /\
  (e = None -> forall i, i < n -> rp r i = rp s i && negb (now i)) /\
  (forall x, e = Some x -> exists k, k < n /\ now k = true /\ prop_body cprop now k r = Raise x).
Proof.
  intros n a now s r e He Hs Hg.
  pose (P := fun k t => sound n a t /\ frame s t /\ rg t = rg s /\ rf t = rf s /\ ro t = ro s /\
                        forall i, rp t i = rp s i && negb (now i && (i <? k))).
  assert (H : (e = None /\ P (0 + n) r) \/ (e <> None /\ exists k, P k r /\ 0 <= k < 0 + n /\ forall x, e = Some x -> prop_body cprop now k r = Raise x)).
  { eapply each_up; [| |exact He].
    - unfold P. splits; auto using frame_refl. intros i. replace (i <? 0) with false by (symmetry; apply Nat.ltb_ge; lia).
      now rewrite andb_false_r, andb_true_r.
    - intros k t t' Hk (S1 & S2 & S3 & S4 & S5 & S6) Hb.
      destruct (body_prop _ _ _ _ Hb) as (B1 & B2 & B3 & B4 & B5). unfold P. splits; try congruence.
      + eapply prop_step; [|exact Hb| |exact S1]; [lia|]. rewrite S3. apply Hg. lia.
      + eapply frame_trans; eauto.
      + rewrite B5. now apply clear_up. }
  cbn [plus] in H.
  destruct H as [(E & S1 & S2 & S3 & S4 & S5 & S6)|(E & k & (S1 & S2 & S3 & S4 & S5 & S6) & Hk & Hb)]; splits; auto.
  - intros i Hi. now rewrite S6, Hi.
  - intros _ i Hi. rewrite S6. apply Nat.ltb_lt in Hi. now rewrite Hi, andb_true_r.
  - intros x Hx. congruence.
  - intros i Hi. now rewrite S6, Hi.
  - tauto.
  - intros x Hx. specialize (Hb x Hx). exists k. splits; [lia| |auto].
    destruct (now k) eqn:En; auto. unfold prop_body in Hb. rewrite En in Hb. discriminate.
Qed.
Lemma fwd_phase : forall n a now s r e,
  each (seq 1 n) (fwd_body now) s = (r, e) -> sound n a s ->
  (forall k, k < n -> now (S k) = true -> rp s k = false) ->
  now 0 = false ->
  (forall k, k < n -> now (S k) = true -> rf s k = true -> now k = true) ->
  sound n a r /\ frame s r /\ rg r = rg s /\ rp r = rp s /\ ro r = ro s /\
  (forall i, rf s i = false -> rf r i = false) /\
  (e = None -> forall i, i <= n -> rf r i = rf s i && negb (now i)) /\
  e = None.
Proof.
  intros n a now s r e He Hs Hp H0 Hc.
  pose (P := fun k t => sound n a t /\ frame s t /\ rg t = rg s /\ rp t = rp s /\ ro t = ro s /\
                        forall i, rf t i = rf s i && negb (now i && (i <? k))).
  assert (H : (e = None /\ P (1 + n) r) \/ (e <> None /\ exists k, P k r /\ 1 <= k < 1 + n /\ forall x, e = Some x -> fwd_body now k r = Raise x)).
  { eapply each_up; [| |exact He].
    - unfold P. splits; auto using frame_refl. intros i. destruct i.
      + rewrite H0. cbn. now rewrite andb_true_r.
      + replace (S i <? 1) with false by (symmetry; apply Nat.ltb_ge; lia). now rewrite andb_false_r, andb_true_r.
    - intros k t t' Hk (S1 & S2 & S3 & S4 & S5 & S6) Hb.
      destruct (body_fwd _ _ _ _ Hb) as (B1 & B2 & B3 & B4 & B5). unfold P. splits; try congruence.
      + eapply fwd_step; [|exact Hb| |exact S1]; [lia|]. intros Hk'. destruct k as [|k]; [lia|].
        replace (S k - 1) with k by lia. rewrite S4, S6. split; [apply Hp; auto; lia|].
        replace (k <? S k) with true by (symmetry; apply Nat.ltb_lt; lia). rewrite andb_true_r.
        destruct (rf s k) eqn:Er; auto. rewrite (Hc k); auto; lia.
      + eapply frame_trans; eauto.
      + rewrite B5. now apply clear_up. }
  cbn [plus] in H.
  destruct H as [(E & S1 & S2 & S3 & S4 & S5 & S6)|(E & k & (S1 & S2 & S3 & S4 & S5 & S6) & Hk & Hb)]; splits; auto.
  - intros i Hi. now rewrite S6, Hi.
  - intros _ i Hi. rewrite S6. replace (i <? S n) with true by (symmetry; apply Nat.ltb_lt; lia). now rewrite andb_true_r.
  - intros i Hi. now rewrite S6, Hi.
  - tauto.
  - destruct e as [x|]; auto. exfalso. specialize (Hb x eq_refl). unfold fwd_body in Hb.
    destruct (now k) eqn:En; [|discriminate]. destruct k as [|k]; [lia|]. replace (S k - 1) with k in Hb by lia.
    assert (Hk' : k < n) by lia.
    destruct S1 as (_ & _ & _ & _ & Q5 & Q6 & _).
    destruct (Q5 k) as (p & Ep & _); [auto|rewrite S4; auto|].
    destruct (Q6 k) as (y & Ey & _); [lia| |].
    { rewrite S6. replace (k <? S k) with true by (symmetry; apply Nat.ltb_lt; lia). rewrite andb_true_r.
      destruct (rf s k) eqn:Er; auto. rewrite (Hc k); auto. }
    rewrite Ep, Ey in Hb. discriminate.
Qed.
Lemma onto_phase : forall n a now s r e,
  each (range_down n) (onto_body now) s = (r, e) -> sound n a s ->
  (forall k, k < n -> now k = true -> rp s k = false) ->
  (forall k, k < n -> now k = true -> ro s (S k) = true -> now (S k) = true) ->
  sound n a r /\ frame s r /\ rg r = rg s /\ rp r = rp s /\ rf r = rf s /\
  (forall i, ro s i = false -> ro r i = false) /\
  (e = None -> forall i, i < n -> ro r i = ro s i && negb (now i)) /\
  e = None.
Proof.
  intros n a now s r e He Hs Hp Hc.
  pose (P := fun k t => sound n a t /\ frame s t /\ rg t = rg s /\ rp t = rp s /\ rf t = rf s /\
                        forall i, ro t i = ro s i && negb (now i && ((k <=? i) && (i <? n)))).
  assert (H : (e = None /\ P 0 r) \/ (e <> None /\ exists k, P (S k) r /\ k < n /\ forall x, e = Some x -> onto_body now k r = Raise x)).
  { eapply each_down; [| |exact He].
    - unfold P. splits; auto using frame_refl. intros i.
      replace ((n <=? i) && (i <? n)) with false; [now rewrite andb_false_r, andb_true_r|].
      destruct (n <=? i) eqn:E; auto. apply Nat.leb_le in E. symmetry. apply Nat.ltb_ge. lia.
    - intros k t t' Hk (S1 & S2 & S3 & S4 & S5 & S6) Hb.
      destruct (body_onto _ _ _ _ Hb) as (B1 & B2 & B3 & B4 & B5). unfold P. splits; try congruence.
      + eapply onto_step; [|exact Hb| |exact S1]; [lia|]. intros Hk'.
        rewrite S4. split; [apply Hp; auto; lia|].
        destruct (Nat.eq_dec (S k) n) as [E|E]; [rewrite E; apply S1|].
        rewrite S6, Nat.leb_refl.
        replace (S k <? n) with true by (symmetry; apply Nat.ltb_lt; lia). rewrite !andb_true_r.
        destruct (ro s (S k)) eqn:Er; auto. rewrite (Hc k); auto; lia.
      + eapply frame_trans; eauto.
      + rewrite B5. now apply clear_down. }
  destruct H as [(E & S1 & S2 & S3 & S4 & S5 & S6)|(E & k & (S1 & S2 & S3 & S4 & S5 & S6) & Hk & Hb)]; splits; auto.
  - intros i Hi. now rewrite S6, Hi.
  - intros _ i Hi. rewrite S6. cbn [Nat.leb]. apply Nat.ltb_lt in Hi. now rewrite Hi, andb_true_r.
  - intros i Hi. now rewrite S6, Hi.
  - tauto.
  - destruct e as [x|]; auto. exfalso. specialize (Hb x eq_refl). unfold onto_body in Hb.
    destruct (now k) eqn:En; [|discriminate]. replace (k + 1) with (S k) in Hb by lia.
    destruct S1 as (_ & _ & _ & _ & Q5 & _ & Q7 & _ & Q9).
    destruct (Q5 k) as (p & Ep & _); [auto|rewrite S4; auto|].
    destruct (Q7 (S k)) as (y & Ey & _); [lia| |].
    { destruct (Nat.eq_dec (S k) n) as [E'|E']; [now rewrite E'|].
      rewrite S6, Nat.leb_refl. replace (S k <? n) with true by (symmetry; apply Nat.ltb_lt; lia). rewrite !andb_true_r.
      destruct (ro s (S k)) eqn:Er; auto. rewrite (Hc k); auto. }
    rewrite Ep, Ey in Hb. discriminate.
Qed.

Lemma sound_count : forall n a f s, sound n a s -> sound n a (count_in f s).
Proof. intros n a f s H. exact H. Qed.

(** [recompute] as a whole: the invariant survives, also an exception; without
    one, everything asked for is no longer marked. *)
Lemma recompute_sound : forall n a s r e,
  recompute cgen cprop s = (r, e) -> sound n a s ->
  sound n a r /\ u_amps r = u_amps s /\ u_cur r = u_cur s /\
  (e = None ->
    (forall k, k < n -> ng s k = true -> rg r k = false) /\
    (forall k, k < n -> np s k = true -> rp r k = false) /\
    (forall k, k <= n -> nf s k = true -> rf r k = false) /\
    (forall k, k <= n -> no s k = true -> ro r k = false)) /\
  (forall x, e = Some x -> exists k now, k < n /\ now k = true /\
     (gen_body cgen now k r = Raise x \/ prop_body cprop now k r = Raise x /\ rg r k = false)).
Proof.
  intros n a s r e He Hs. assert (Hn : u_n s = n) by apply Hs.
  assert (H0 : rf s 0 = false) by apply Hs. assert (HN : ro s n = false) by apply Hs.
  unfold recompute in He. rewrite Hn in He.
  set (f_now := back_closure n (rf s) (fun k => nf s k && rf s k)) in *.
  set (o_now := fore_closure n (ro s) (fun k => no s k && ro s k)) in *.
  cbv zeta in He. fold f_now o_now in He.
  set (g_now := fun k => ((f_now (S k) || o_now k || np s k) && rp s k || ng s k) && rg s k) in He.
  set (p_now := fun k => (f_now (S k) || o_now k || np s k) && rp s k) in He.
  destruct (back_spec n (rf s) (fun k => nf s k && rf s k)) as (F1 & F2 & _ & F4). fold f_now in F1, F2, F4.
  destruct (fore_spec n (ro s) (fun k => no s k && ro s k)) as (O1 & O2 & O3). fold o_now in O1, O2, O3.
  assert (F0 : f_now 0 = false).
  { destruct (f_now 0) eqn:E; auto. destruct (F2 _ E) as [H|H]; [apply andb_prop in H as [_ H]|]; congruence. }
  destruct (each (range n) (gen_body cgen g_now) s) as [s1 e1] eqn:E1.
  destruct (gen_phase _ _ _ _ _ _ E1 Hs) as (G1 & G2 & G3 & G4 & G5 & G6 & G7 & G8).
  unfold frame in G2.
  destruct e1 as [e1|]; cbn [and_then] in He; [injection He as <- <-; splits; auto; try tauto; [discriminate|]|].
  { intros x Hx. destruct (G8 x Hx) as (k & Hk & Hk' & Hb). exists k, g_now. auto. }
  specialize (G7 eq_refl).
  set (s1' := count_in _ s1) in *.
  destruct (each (range n) (prop_body cprop p_now) s1') as [s2 e2] eqn:E2.
  destruct (prop_phase n a _ _ _ _ E2 (sound_count _ _ _ _ G1)) as (P1 & P2 & P3 & P4 & P5 & P6 & P7 & P8).
  { intros k Hk Hp. change (rg s1' k) with (rg s1 k). rewrite G7 by auto. unfold g_now. unfold p_now in Hp. rewrite Hp. cbn. now destruct (rg s k). }
  unfold frame in P2. change (rg s1') with (rg s1) in *. change (rp s1') with (rp s1) in *. change (rf s1') with (rf s1) in *. change (ro s1') with (ro s1) in *.
  change (u_amps s1') with (u_amps s1) in *. change (u_cur s1') with (u_cur s1) in *.
  destruct e2 as [e2|]; cbn [and_then] in He; [injection He as <- <-|].
  { splits; auto; try discriminate; try (destruct P2 as (?&?&?&?), G2 as (?&?&?&?); congruence).
    intros x Hx. destruct (P8 x Hx) as (k & Hk & Hk' & Hb). exists k, p_now. splits; auto. right. split; auto.
    rewrite P3, G7 by auto. unfold g_now. unfold p_now in Hk'. rewrite Hk'. cbn. now destruct (rg s k). }
  specialize (P7 eq_refl).
  set (s2' := count_in _ s2) in *.
  destruct (each (seq 1 n) (fwd_body f_now) s2') as [s3 e3] eqn:E3.
  destruct (fwd_phase n a _ _ _ _ E3 (sound_count _ _ _ _ P1)) as (W1 & W2 & W3 & W4 & W5 & W6 & W7 & W8); auto.
  { intros k Hk Hp. change (rp s2' k) with (rp s2 k). rewrite P7, G3 by auto. unfold p_now. rewrite Hp. cbn. now destruct (rp s k). }
  { intros k Hk Hf Hr. change (rf s2' k) with (rf s2 k) in Hr. rewrite P4, G4 in Hr.
    replace k with (S k - 1) by lia. apply F4; auto; [lia|]. now replace (S k - 1) with k by lia. }
  unfold frame in W2. change (rg s2') with (rg s2) in *. change (rp s2') with (rp s2) in *. change (rf s2') with (rf s2) in *. change (ro s2') with (ro s2) in *.
  change (u_amps s2') with (u_amps s2) in *. change (u_cur s2') with (u_cur s2) in *.
  rewrite W8 in He, W7. cbn [and_then] in He.
  specialize (W7 eq_refl).
  set (s3' := count_in _ s3) in *.
  destruct (each (range_down n) (onto_body o_now) s3') as [s4 e4] eqn:E4.
  destruct (onto_phase n a _ _ _ _ E4 (sound_count _ _ _ _ W1)) as (T1 & T2 & T3 & T4 & T5 & T6 & T7 & T8); auto.
  { intros k Hk Hp. change (rp s3' k) with (rp s3 k). rewrite W4, P7, G3 by auto. unfold p_now. rewrite Hp, orb_true_r. cbn. now destruct (rp s k). }
  { intros k Hk Hf Hr. change (ro s3' (S k)) with (ro s3 (S k)) in Hr. rewrite W5, P5, G5 in Hr. apply O3; auto. }
  unfold frame in T2. change (rg s3') with (rg s3) in *. change (rp s3') with (rp s3) in *. change (rf s3') with (rf s3) in *. change (ro s3') with (ro s3) in *.
  change (u_amps s3') with (u_amps s3) in *. change (u_cur s3') with (u_cur s3) in *.
  rewrite T8 in He, T7. cbn [and_then] in He.
  specialize (T7 eq_refl).
  set (s4' := count_in _ s4) in *. injection He as <- <-.
  splits.
  - exact T1.
  - cbn. change (u_amps s4') with (u_amps s4). destruct T2 as (?&?&?&?), W2 as (?&?&?&?), P2 as (?&?&?&?), G2 as (?&?&?&?); congruence.
  - cbn. change (u_cur s4') with (u_cur s4). destruct T2 as (?&?&?&?), W2 as (?&?&?&?), P2 as (?&?&?&?), G2 as (?&?&?&?); congruence.
  - intros _. cbn. change (rg s4') with (rg s4). change (rp s4') with (rp s4). change (rf s4') with (rf s4). change (ro s4') with (ro s4).
    splits.
    + intros k Hk Hn'. rewrite T3, W3, P3, G7 by auto. unfold g_now. rewrite Hn', orb_true_r. cbn. now destruct (rg s k).
    + intros k Hk Hn'. rewrite T4, W4, P7, G3 by auto. unfold p_now. rewrite Hn', orb_true_r. cbn. now destruct (rp s k).
    + intros k Hk Hn'. rewrite T5, W7, P4, G4 by auto. destruct (rf s k) eqn:E; auto.
      rewrite F1; auto. now rewrite Hn', E.
    + intros k Hk Hn'. destruct (Nat.eq_dec k n) as [->|Hk'].
      * apply T6. now rewrite W5, P5, G5.
      * rewrite T7, W5, P5, G5 by lia. destruct (ro s k) eqn:E; auto.
        rewrite O1; auto. now rewrite Hn', E.
  - discriminate.
Qed.

Lemma neq_row_false : forall x y r, neq_row x y = Ok r -> any r = false -> x = y.
Proof.
  induction x as [|u x IH]; intros [|v y] r H Ha; cbn in H; try discriminate; auto.
  destruct (neq_row x y) as [r'|] eqn:E; [|discriminate]. cbn in H. injection H as <-.
  cbn in Ha. apply orb_false_iff in Ha as [H1 H2]. f_equal; [|eapply IH; eauto].
  unfold neqR in H1. destruct (Req_EM_T u v); [auto|discriminate].
Qed.
Lemma neq_amps_rows : forall x y ch, neq_amps x y = Ok ch ->
  length x = length ch /\ length y = length ch /\
  forall k, nth k (map any ch) false = false -> nth_error x k = nth_error y k.
Proof.
  induction x as [|u x IH]; intros [|v y] ch H; cbn in H; try discriminate.
  - injection H as <-. auto.
  - destruct (neq_row u v) as [r|] eqn:Er; [|discriminate]. cbn in H.
    destruct (neq_amps x y) as [rs|] eqn:E; [|discriminate]. cbn in H. injection H as <-.
    destruct (IH _ _ E) as (H1 & H2 & H3). cbn. splits; try lia.
    intros [|k] Hk; cbn; [f_equal; eapply neq_row_false; eauto|apply H3; auto].
Qed.

Lemma neq_amps_same : forall x y ch, neq_amps x y = Ok ch -> any (map any ch) = false -> x = y.
Proof.
  induction x as [|u x IH]; intros [|v y] ch H Ha; cbn in H; try discriminate; auto.
  destruct (neq_row u v) as [r|] eqn:Er; [|discriminate]. cbn in H.
  destruct (neq_amps x y) as [rs|] eqn:E; [|discriminate]. cbn in H. injection H as <-.
  cbn in Ha. apply orb_false_iff in Ha as [H1 H2].
  f_equal; [eapply neq_row_false; eauto|eapply IH; eauto].
Qed.

(** The rows outside the changed slots are the same, so what depends only on
    them still is current. *)
Definition same_at (a b : amps) (k : nat) : Prop := forall g, is_gen cgen a k g -> is_gen cgen b k g.
Lemma gen_same : forall a b k, nth_error a k = nth_error b k -> same_at a b k.
Proof. intros a b k E g (f & row & H1 & H2 & H3). exists f, row. splits; auto. congruence. Qed.
Lemma none_same : forall b k, same_at [] b k.
Proof. intros b k g (f & row & _ & H & _). destruct k; discriminate. Qed.
Lemma prop_same : forall a b k p, same_at a b k -> is_prop cgen cprop a k p -> is_prop cgen cprop b k p.
Proof. intros a b k p E (f & g & H1 & H2 & H3). exists f, g. splits; auto. Qed.
Lemma fwd_same : forall a b k x, (forall i, i < k -> same_at a b i) ->
  is_fwd cgen cprop initial a k x -> is_fwd cgen cprop initial b k x.
Proof.
  intros a b. induction k as [|k IH]; cbn; auto. intros x E (p & y & H1 & H2 & H3).
  exists p, y. splits; auto. apply (prop_same a); auto.
Qed.
Lemma onto_same : forall a b l k x, (forall i, k <= i < k + l -> same_at a b i) ->
  onto_left cgen cprop targ a k l x -> onto_left cgen cprop targ b k l x.
Proof.
  intros a b. induction l as [|l IH]; cbn; auto. intros k x E (p & y & H1 & H2 & H3).
  exists p, y. splits; auto.
  - apply (prop_same a); auto. apply E. lia.
  - apply IH; auto. intros i Hi. apply E. lia.
Qed.

Lemma compare_sound : forall n a s new s' same,
  compare new s = Ok (s', same) -> sound n a s ->
  (same = true /\ s' = s /\ (forall o, u_amps s = Some o -> o = new)) \/
  (same = false /\ u_amps s' = Some new /\ u_cur s' = false /\
   ng s' = ng s /\ np s' = np s /\ nf s' = nf s /\ no s' = no s /\ sound n new s').
Proof.
  intros n a s new s' same He Hs. unfold compare in He.
  destruct (match u_amps s with Some old => neq_amps old new | None => _ end) as [ch|] eqn:Ech; [|discriminate].
  cbn [bind] in He. destruct (any (map any ch)) eqn:Ea.
  2: { injection He as <- <-. left. splits; auto. intros o Eo. rewrite Eo in Ech.
       eapply neq_amps_same; eauto. }
  destruct Hs as (H1 & H2 & H3 & H4 & H5 & H6 & H7 & H8 & H9).
  destruct (length (map any ch) =? u_n s) eqn:El; [|discriminate]. apply Nat.eqb_eq in El.
  rewrite map_length in El.
  set (m := fun k => nth k (map any ch) false) in *. cbn -[first_last range count Nat.add] in He.
  pose proof (first_last_spec (u_n s) m) as FL.
  destruct (first_last (u_n s) m) as [[first|] last]; [|discriminate He].
  rewrite H1 in *. destruct FL as (_ & HL & _ & _ & FL).
  assert (Hsame : length new = n /\ forall k, m k = false -> same_at a new k).
  { unfold amps_of in H2. destruct (u_amps s).
    - apply neq_amps_rows in Ech as (E1 & E2 & E3). subst a. split; [lia|]. intros k Hk. now apply gen_same, E3.
    - subst a. injection Ech as <-. rewrite map_length in El. split; [lia|]. intros. apply none_same. }
  destruct Hsame as [Hlen Hsame].
  right.
  assert (Hr : same = false /\ u_amps s' = Some new /\ u_cur s' = false /\ ng s' = ng s /\ np s' = np s /\ nf s' = nf s /\ no s' = no s /\
    u_n s' = u_n s /\ u_gen s' = u_gen s /\ u_prop s' = u_prop s /\ u_fwd s' = u_fwd s /\ u_onto s' = u_onto s /\
    (forall k, rg s' k = m k || rg s k) /\ (forall k, rp s' k = m k || rp s k) /\
    (forall k, rf s' k = (first + 1 <=? k) || rf s k) /\ (forall k, ro s' k = (k <? last + 1) || ro s k)).
  { destruct (u_stats s); injection He as <- <-; cbn -[Nat.add Nat.ltb Nat.leb]; splits; auto. }
  clear He. destruct Hr as (R1 & R2 & R3 & R4 & R5 & R6 & R7 & R8 & R9 & R10 & R11 & R12 & R13 & R14 & R15 & R16).
  splits; auto. unfold sound, amps_of. rewrite R2, R8, R9, R10, R11, R12. splits; auto.
  - intros o [= <-]. auto.
  - intros k Hk Hr. rewrite R13 in Hr. apply orb_false_elim in Hr as [Hm Hr].
    destruct (H4 k Hk Hr) as (g & E & Hg). exists g. split; auto. now apply Hsame.
  - intros k Hk Hr. rewrite R14 in Hr. apply orb_false_elim in Hr as [Hm Hr].
    destruct (H5 k Hk Hr) as (g & E & Hg). exists g. split; auto. eapply prop_same; eauto.
  - intros k Hk Hr. rewrite R15 in Hr. apply orb_false_elim in Hr as [Hm Hr]. apply Nat.leb_gt in Hm.
    destruct (H6 k Hk Hr) as (x & E & Hx). exists x. split; auto. eapply fwd_same; [|exact Hx].
    intros i Hi. apply Hsame. destruct (m i) eqn:Em; auto. destruct (FL i); auto; lia.
  - intros k Hk Hr. rewrite R16 in Hr. apply orb_false_elim in Hr as [Hm Hr]. apply Nat.ltb_ge in Hm.
    destruct (H7 k Hk Hr) as (x & E & Hx). exists x. split; auto. eapply onto_same; [|exact Hx].
    intros i Hi. apply Hsame. destruct (m i) eqn:Em; auto. destruct (FL i); auto; lia.
  - rewrite R15, H8, orb_false_r. apply Nat.leb_gt. lia.
  - rewrite R16, H9, orb_false_r. apply Nat.ltb_ge. lia.
Qed.

(** The requests leave everything else alone. *)
Lemma flag_sound : forall n a s, sound n a s -> sound n a (flag_all s).
Proof. intros n a s H. exact H. Qed.
Lemma slot_sound : forall n a s s' k, get_timeslot s = Ok (s', k) -> sound n a s -> sound n a s'.
Proof.
  intros n a s s' k H Hs. unfold get_timeslot in H. destruct (find_slot _ _ _); [|discriminate].
  injection H as <- <-. exact Hs.
Qed.

(** After any calls. *)
Lemma step_sound : forall n o s, sound n (amps_of s) s -> sound n (amps_of (ustep cgen cprop o s)) (ustep cgen cprop o s).
Proof.
  intros n o s Hs. destruct o; cbn [ustep].
  - destruct (compare a s) as [[s' b]|] eqn:E; auto.
    destruct (compare_sound _ _ _ _ _ _ E Hs) as [(_ & -> & _)|(_ & H1 & _ & _ & _ & _ & _ & H2)]; auto.
    unfold amps_of. now rewrite H1.
  - exact Hs.
  - destruct (get_timeslot s) as [[s' k]|] eqn:E; auto. unfold get_timeslot in E.
    destruct (find_slot _ _ _); [|discriminate]. injection E as <- <-. exact Hs.
  - destruct (recompute cgen cprop s) as [r e] eqn:E. cbn [fst].
    destruct (recompute_sound _ _ _ _ _ E Hs) as (H1 & H2 & _). unfold amps_of in *. now rewrite H2.
  - unfold compute_evo. destruct (u_cur s); auto.
    destruct (recompute cgen cprop s) as [r e] eqn:E.
    destruct (recompute_sound _ _ _ _ _ E Hs) as (H1 & H2 & _).
    destruct e; cbn [and_then fst]; unfold amps_of in *; cbn [u_amps]; [now rewrite H2|].
    change (u_amps (r <| u_cur := true |>)) with (u_amps r). rewrite H2. exact H1.
Qed.
Lemma history_sound : forall n st l,
  let s := uruns cgen cprop l (init_comp n initial targ st) in sound n (amps_of s) s.
Proof.
  intros n st l. cbv zeta. assert (H : sound n (amps_of (init_comp n initial targ st)) (init_comp n initial targ st)) by apply sound_init.
  revert H. generalize (init_comp n initial targ st). induction l as [|o l IH]; intros s H; auto.
  cbn. apply IH. now apply step_sound.
Qed.

(** The timeslot for the fidelity. *)
Lemma find_spec : forall (s : du) ks f, (forall j, f = Some j -> rf s j = false) ->
  match find_slot s ks f with
  | None => f = None /\ forall k, In k ks -> rf s k = true
  | Some k => (In k ks \/ f = Some k) /\ rf s k = false /\
              (forall j, In j ks -> rf s j = false -> ro s j = false -> ro s k = false)
  end.
Proof.
  intros s. induction ks as [|k ks IH]; intros f Hf; cbn [find_slot].
  - destruct f as [j|]; splits; auto; cbn; tauto.
  - destruct (rf s k) eqn:Er.
    + specialize (IH f Hf). destruct (find_slot s ks f) as [j|]; [destruct IH as (I1 & I2 & I3)|destruct IH as (I1 & I2)]; splits; auto.
      * destruct I1; [left; right; auto|right; auto].
      * intros i [<-|Hi] Hr Ho; [congruence|eauto].
      * intros i [<-|Hi]; auto.
    + destruct (ro s k) eqn:Eo.
      * assert (Hf' : forall j, Some k = Some j -> rf s j = false) by (intros j [= <-]; auto).
        specialize (IH (Some k) Hf'). destruct (find_slot s ks (Some k)) as [j|]; [destruct IH as (I1 & I2 & I3)|destruct IH as (I1 & I2); discriminate].
        splits; auto.
        -- left. destruct I1 as [|[= ->]]; [right|left]; auto.
        -- intros i [<-|Hi] Hr Ho; [congruence|eauto].
      * splits; auto. left; left; auto.
Qed.
Lemma slot_found : forall (s : du) n, 0 < n -> rf s 0 = false ->
  exists k, find_slot s (range n) None = Some k /\ k < n /\ rf s k = false /\
    forall j, j < n -> rf s j = false -> ro s j = false -> ro s k = false.
Proof.
  intros s n Hn H0. pose proof (find_spec s (range n) None ltac:(discriminate)) as H.
  destruct (find_slot s (range n) None) as [k|].
  - destruct H as ([H1|H1] & H2 & H3); [|discriminate]. apply in_seq in H1. exists k. splits; auto; try lia.
    intros j Hj. apply H3. apply in_seq. lia.
  - destruct H as (_ & H). rewrite H in H0; [discriminate|]. apply in_seq. lia.
Qed.

Lemma neq_row_true : forall x r, neq_row x x = Ok r -> any r = false.
Proof.
  induction x as [|u x IH]; intros r H; cbn in H; [now injection H as <-|].
  destruct (neq_row x x) as [r'|] eqn:E; [|discriminate]. cbn in H. injection H as <-. cbn.
  rewrite IH by auto. unfold neqR. now destruct (Req_EM_T u u).
Qed.
Lemma neq_amps_marks : forall x y ch, neq_amps x y = Ok ch ->
  forall k, nth k (map any ch) false = true <-> nth_error x k <> nth_error y k.
Proof.
  induction x as [|u x IH]; intros [|v y] ch H; cbn in H; try discriminate.
  - injection H as <-. intros [|k]; cbn; split; congruence.
  - destruct (neq_row u v) as [r|] eqn:Er; [|discriminate]. cbn in H.
    destruct (neq_amps x y) as [rs|] eqn:E; [|discriminate]. cbn in H. injection H as <-.
    intros [|k]; cbn; [|now apply IH].
    destruct (any r) eqn:Ea; split; try congruence.
    + intros _ [= ->]. rewrite (neq_row_true _ _ Er) in Ea. discriminate.
    + intros Hne. exfalso. apply Hne. f_equal. eapply neq_row_false; eauto.
Qed.
Lemma compare_marks : forall (s : du) n old new s', u_amps s = Some old -> compare new s = Ok (s', false) ->
  forall k, k < n ->
    (rg s' k = true <-> rg s k = true \/ nth_error old k <> nth_error new k) /\
    (rp s' k = true <-> rp s k = true \/ nth_error old k <> nth_error new k).
Proof.
  intros s n old new s' Ha He k _. unfold compare in He. rewrite Ha in He.
  destruct (neq_amps old new) as [ch|] eqn:Ech; [|discriminate]. cbn [bind] in He.
  destruct (any (map any ch)); [|discriminate]. destruct (length (map any ch) =? u_n s); [|discriminate].
  cbn -[first_last range count Nat.add] in He. destruct (first_last _ _) as [[f|] l]; [|discriminate He].
  rewrite <- (neq_amps_marks _ _ _ Ech k).
  assert (E : rg s' k = nth k (map any ch) false || rg s k /\ rp s' k = nth k (map any ch) false || rp s k)
    by (destruct (u_stats s); injection He as <-; split; reflexivity).
  destruct E as [-> ->]. rewrite !orb_true_iff. tauto.
Qed.
End Facts.
