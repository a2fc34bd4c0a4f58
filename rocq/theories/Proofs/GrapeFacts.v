(** Facts about the simple GRAPE functions, for every operator algebra. *)
From Coq Require Import Reals Lra.
From Coquelicot Require Import Coquelicot.
From Verif.Model Require Import Base Dyn Grape.
From Verif.Lib Require Import Lists.
From Verif.Spec Require Import Evolution.
Ltac splits := repeat match goal with |- _ /\ _ => split end.
Local Open Scope nat_scope.
Set Bullet Behavior "Strict Subproofs".

Definition at2 (u : pulse) (j m : nat) : R := nth m (nth j u []) 0%R.

Lemma nth_of {X} (l : list X) k d : k < length l -> nth_error l k = Some (nth k l d).
Proof. intros H. now apply nth_error_nth'. Qed.

Lemma shape_row J M (u : pulse) j : shape J M u -> j < J -> length (nth j u []) = M.
Proof.
  intros [L F] H. rewrite Forall_forall in F. apply F. apply nth_In. now rewrite L.
Qed.
Lemma get2_ok J M u j m : shape J M u -> j < J -> m < M -> get2 u j m = Ok (at2 u j m).
Proof.
  intros S Hj Hm. unfold get2, at2. pose proof (shape_row J M u j S Hj) as L. destruct S as [L1 _].
  rewrite (get_ok u j (nth j u [])) by (apply nth_of; now rewrite L1). cbn.
  apply get_ok, nth_of. now rewrite L.
Qed.
Definition upd2 (u : pulse) (j m : nat) (x : R) : pulse := upd u j (upd (nth j u []) m x).
Lemma set2_ok J M u j m x : shape J M u -> j < J -> m < M -> set2 u j m x = Ok (upd2 u j m x).
Proof.
  intros S Hj Hm. unfold set2, upd2. pose proof (shape_row J M u j S Hj) as L. destruct S as [L1 _].
  rewrite (get_ok u j (nth j u [])) by (apply nth_of; now rewrite L1). cbn.
  rewrite set_ok by now rewrite L. cbn. apply set_ok. now rewrite L1.
Qed.
Lemma upd2_shape J M u j m x : shape J M u -> j < J -> shape J M (upd2 u j m x).
Proof.
  intros S Hj. pose proof (shape_row J M u j S Hj). destruct S as [L F]. unfold upd2. split.
  - now rewrite upd_length.
  - apply Forall_upd; auto. now rewrite upd_length.
Qed.
Lemma nth_upd_nth {X} (l : list X) k v i d : k < length l -> nth i (upd l k v) d = if i =? k then v else nth i l d.
Proof.
  intros H. destruct (i =? k) eqn:E.
  - apply Nat.eqb_eq in E as ->. apply nth_error_nth. now apply nth_upd_eq.
  - apply Nat.eqb_neq in E. destruct (Nat.lt_ge_cases i (length l)).
    + apply nth_error_nth. rewrite nth_upd_neq by auto. now apply nth_of.
    + rewrite !nth_overflow; auto. now rewrite upd_length.
Qed.
Lemma at2_upd2 J M u j m x j' m' : shape J M u -> j < J -> m < M ->
  at2 (upd2 u j m x) j' m' = if (j' =? j) && (m' =? m) then x else at2 u j' m'.
Proof.
  intros S Hj Hm. pose proof (shape_row J M u j S Hj) as L. destruct S as [L1 _]. unfold at2, upd2.
  rewrite nth_upd_nth by now rewrite L1.
  destruct (j' =? j) eqn:E; cbn; auto. apply Nat.eqb_eq in E as ->.
  rewrite nth_upd_nth by now rewrite L. auto.
Qed.
Lemma zero_shape J M : shape J M (zero_pulse J M).
Proof.
  unfold zero_pulse. split; [apply repeat_length|]. apply Forall_forall. intros r H. apply repeat_spec in H as ->. apply repeat_length.
Qed.
Lemma zero_at J M j m : at2 (zero_pulse J M) j m = 0%R.
Proof.
  unfold at2, zero_pulse. destruct (Nat.lt_ge_cases j J).
  - rewrite (nth_error_nth (repeat (repeat 0%R M) J) j [] (x := repeat 0%R M)) by now apply nth_repeat.
    destruct (Nat.lt_ge_cases m M).
    + apply nth_error_nth. now apply nth_repeat.
    + apply nth_overflow. now rewrite repeat_length.
  - rewrite (nth_overflow (repeat _ J)) by now rewrite repeat_length. now destruct m.
Qed.
Lemma pulse_ext J M u v : shape J M u -> shape J M v -> (forall j m, j < J -> m < M -> at2 u j m = at2 v j m) -> u = v.
Proof.
  intros Su Sv H. pose proof (shape_row J M u) as Ru. pose proof (shape_row J M v) as Rv.
  apply (nth_ext u v [] []).
  - destruct Su, Sv. lia.
  - intros j Hj. assert (j < J) by (destruct Su; lia).
    apply (nth_ext _ _ 0%R 0%R); [rewrite Ru, Rv; auto|].
    intros m Hm. rewrite Ru in Hm by auto. now apply H.
Qed.

Section Any.
Context {A : Alg} (one : Op A) (dim : nat) (g : gargs (Op A)).
Notation Op := (Op A).
Let M := length (g_times g).
Let J := length (g_H g).

(** Entry (j, m) of the next pulse. *)
Definition val (pen : nat -> R -> C -> C) (lim : option (R * R)) (dt eps : R) (fl bl : list Op) (u : pulse) (j m : nat) : R :=
  clip lim (at2 u j m + eps * Re (pen m (at2 u j m) (direction dim (g_ps g) (g_U g) (nth j (g_H g) one) dt (nth m fl one) (nth m bl one))))%R.
Definition py_pen dt m x := penal_py (g_alpha g) (g_beta g) m x dt.
Definition cy_pen dt m x := penal_cy (if truthy (g_alpha g) then value (g_alpha g) else 0)
                               (if truthy (g_beta g) then value (g_beta g) else 0) m x dt.
Definition is_next (f : nat -> nat -> R) (v : pulse) : Prop :=
  shape J M v /\ forall j m, j < J -> m < M -> at2 v j m = f j (if m =? M - 1 then M - 2 else m).

Lemma is_next_unique f v w : is_next f v -> is_next f w -> v = w.
Proof. intros [S H] [S' H']. apply (pulse_ext J M); auto. intros. rewrite H, H'; auto. Qed.

Hypothesis HM : 2 <= M.

Lemma update_py_next lim dt eps fl bl u : length fl = M - 1 -> length bl = M - 1 -> shape J M u ->
  exists v, update_py dim g M J lim dt eps fl bl u = Ok v /\ is_next (val (py_pen dt) lim dt eps fl bl u) v.
Proof.
  intros Lf Lb Su. unfold update_py.
  set (f := val (py_pen dt) lim dt eps fl bl u).
  match goal with |- context [for_each _ ?B _] => destruct (for_range (fun k (v : pulse) => shape J M v /\ forall j m, j < k -> m < M -> at2 v j m = f j (if m =? M - 1 then M - 2 else m))
    B J (zero_pulse J M)) as (v & -> & S & H) end.
  - split; [apply zero_shape|]. intros. lia.
  - intros j v Hj (Sv & Hv).
    match goal with |- context [for_each _ ?B _] => destruct (for_range (fun k (w : pulse) => shape J M w /\ (forall j' m, j' < j -> m < M -> at2 w j' m = at2 v j' m) /\ forall m, m < k -> at2 w j m = f j m)
      B (M - 1) v) as (w & -> & Sw & Ho & Hw) end.
    + split; auto. split; auto. intros. lia.
    + intros m w Hm (Sw & Ho & Hw).
      rewrite (get_ok bl m (nth m bl one)) by (apply nth_of; lia).
      rewrite (get_ok fl m (nth m fl one)) by (apply nth_of; lia).
      rewrite (get_ok (g_H g) j (nth j (g_H g) one)) by (apply nth_of; auto).
      rewrite (get2_ok J M) by (auto; lia). cbn [bind]. cbv zeta.
      rewrite (set2_ok J M) by (auto; lia). eexists. split; [reflexivity|]. splits.
      * apply upd2_shape; auto.
      * intros. rewrite (at2_upd2 J M) by (auto; lia). replace (j' =? j) with false by (symmetry; apply Nat.eqb_neq; lia). cbn [andb]. auto.
      * intros m' Hm'. rewrite (at2_upd2 J M) by (auto; lia). rewrite Nat.eqb_refl. cbn.
        destruct (m' =? m) eqn:E; [apply Nat.eqb_eq in E as ->; reflexivity|]. apply Hw. apply Nat.eqb_neq in E. lia.
    + cbn [bind]. rewrite (get2_ok J M) by (auto; lia). cbn [bind].
      rewrite (set2_ok J M) by (auto; lia). eexists. split; [reflexivity|]. split.
      * apply upd2_shape; auto.
      * intros j' m Hj' Hm. rewrite (at2_upd2 J M) by (auto; lia).
        destruct (j' =? j) eqn:E; cbn.
        -- apply Nat.eqb_eq in E as ->. destruct (m =? M - 1) eqn:E; rewrite Hw; auto; [lia|]. apply Nat.eqb_neq in E. lia.
        -- apply Nat.eqb_neq in E. rewrite Ho by lia. apply Hv; lia.
  - exists v. split; auto. split; auto.
Qed.

Lemma update_cy_next lim dt eps fl bl u : length fl = M - 1 -> length bl = M - 1 -> shape J M u ->
  exists v, update_cy dim g M J lim dt eps fl bl u = Ok v /\ is_next (val (cy_pen dt) lim dt eps fl bl u) v.
Proof.
  intros Lf Lb Su. unfold update_cy.
  set (f := val (cy_pen dt) lim dt eps fl bl u).
  match goal with |- context [for_each _ ?B _] => destruct (for_range (fun k (v : pulse) => shape J M v /\ forall j m, j < J -> m < k -> at2 v j m = f j m)
    B (M - 1) (zero_pulse J M)) as (v & -> & S & H) end.
  - split; [apply zero_shape|]. intros. lia.
  - intros m v Hm (Sv & Hv).
    rewrite (get_ok bl m (nth m bl one)) by (apply nth_of; lia). cbn [bind].
    match goal with |- context [for_each _ ?B _] => destruct (for_range (fun k (w : pulse) => shape J M w /\ (forall j m', j < J -> m' < m -> at2 w j m' = at2 v j m') /\ forall j, j < k -> at2 w j m = f j m)
       B J v) as (w & -> & Sw & Ho & Hw) end.
    + split; auto. split; auto. intros. lia.
    + intros j w Hj (Sw & Ho & Hw).
      rewrite (get_ok fl m (nth m fl one)) by (apply nth_of; lia).
      rewrite (get_ok (g_H g) j (nth j (g_H g) one)) by (apply nth_of; auto).
      rewrite (get2_ok J M) by (auto; lia). cbn [bind]. cbv zeta.
      rewrite (set2_ok J M) by (auto; lia). eexists. split; [reflexivity|]. splits.
      * apply upd2_shape; auto.
      * intros j' m' Hj' Hm'. rewrite (at2_upd2 J M) by (auto; lia). replace (m' =? m) with false by (symmetry; apply Nat.eqb_neq; lia).
        rewrite andb_false_r. auto.
      * intros j' Hj'. rewrite (at2_upd2 J M) by (auto; lia). rewrite Nat.eqb_refl, andb_true_r.
        destruct (j' =? j) eqn:E; [apply Nat.eqb_eq in E as ->; reflexivity|]. apply Hw. apply Nat.eqb_neq in E. lia.
    + exists w. split; auto. split; auto. intros j' m' Hj' Hm'.
      destruct (Nat.eq_dec m' m) as [-> |]; auto. rewrite Ho by lia. apply Hv; lia.
  - cbn [bind].
    match goal with |- context [for_each _ ?B _] => destruct (for_range (fun k (w : pulse) => shape J M w /\ (forall j m, j < J -> m < M - 1 -> at2 w j m = f j m) /\ forall j, j < k -> at2 w j (M - 1) = f j (M - 2))
      B J v) as (w & -> & Sw & Ho & Hw) end.
    + split; auto. split; auto. intros. lia.
    + intros j w Hj (Sw & Ho & Hw). rewrite (get2_ok J M) by (auto; lia). cbn [bind].
      rewrite (set2_ok J M) by (auto; lia). eexists. split; [reflexivity|]. splits.
      * apply upd2_shape; auto.
      * intros j' m' Hj' Hm'. rewrite (at2_upd2 J M) by (auto; lia). replace (m' =? M - 1) with false by (symmetry; apply Nat.eqb_neq; lia).
        rewrite andb_false_r. auto.
      * intros j' Hj'. rewrite (at2_upd2 J M) by (auto; lia). rewrite Nat.eqb_refl, andb_true_r.
        destruct (j' =? j) eqn:E; [apply Nat.eqb_eq in E as ->; apply Ho; lia|]. apply Hw. apply Nat.eqb_neq in E. lia.
    + exists w. split; auto. split; auto. intros j m Hj Hm. destruct (m =? M - 1) eqn:E.
      * apply Nat.eqb_eq in E as ->. auto.
      * apply Nat.eqb_neq in E. apply Ho; lia.
Qed.
End Any.

Lemma for_range_ext {S} (P : nat -> S -> Prop) (b1 b2 : nat -> S -> Res S) n s :
  P 0 s ->
  (forall k s, k < n -> P k s -> b1 k s = b2 k s /\ forall s', b1 k s = Ok s' -> P (1 + k) s') ->
  for_each (range n) b1 s = for_each (range n) b2 s.
Proof.
  intros H0 Hs. unfold range.
  assert (G : forall p i s, i + p = n -> P i s -> for_each (seq i p) b1 s = for_each (seq i p) b2 s).
  { induction p; intros i s' E HP; cbn; auto.
    destruct (Hs i s' ltac:(lia) HP) as (<- & Hp). destruct (b1 i s') as [s1|] eqn:E1; cbn; auto.
    apply IHp; [lia|]. now apply Hp. }
  apply (G n 0 s); auto.
Qed.
Lemma map_res_length {X Y} (f : X -> Res Y) l ys : map_res f l = Ok ys -> length ys = length l.
Proof.
  revert ys. induction l; cbn; intros ys H; [injection H as <-; auto|].
  apply bind_inv in H as (y & _ & H). apply bind_inv in H as (ys' & E & H). injection H as <-. cbn. f_equal. auto.
Qed.
Lemma map_res_nth {X Y} (f : X -> Res Y) l ys k x : map_res f l = Ok ys -> nth_error l k = Some x ->
  exists y, nth_error ys k = Some y /\ f x = Ok y.
Proof.
  revert ys k. induction l; cbn; intros ys k H N; [now destruct k|].
  apply bind_inv in H as (y & E1 & H). apply bind_inv in H as (ys' & E & H). injection H as <-.
  destruct k; cbn in *; [injection N as ->; eauto|]. eauto.
Qed.
Lemma range_nth n k : k < n -> nth_error (range n) k = Some k.
Proof. intros H. unfold range. rewrite nth_error_nth' with (d := 0) by now rewrite seq_length. now rewrite seq_nth. Qed.

(** The first pulse. *)
Lemma copy_rows_shape J M rows : forall idx u u', copy_rows M rows idx u = Ok u' -> shape J M u ->
  shape J M u' /\
  forall j m, j < J -> m < M ->
    at2 u' j m = match nth_error rows (j - idx) with
                 | Some r => if idx <=? j then (if length r =? M then nth m r 0%R else nth 0 r 0%R) else at2 u j m
                 | None => at2 u j m
                 end.
Proof.
  induction rows as [|r rows IH]; intros idx u u' H Sh; cbn in H.
  - injection H as <-. split; auto. intros. now destruct (j - idx).
  - apply bind_inv in H as (row & Er & H). apply bind_inv in H as (u1 & Es & H).
    apply set_inv in Es as (Hi & ->).
    assert (Lr : length row = M /\ forall m, m < M -> nth m row 0%R = if length r =? M then nth m r 0%R else nth 0 r 0%R).
    { destruct (length r =? M) eqn:E; [injection Er as <-; apply Nat.eqb_eq in E; auto|].
      destruct r as [|x [|]]; try discriminate. injection Er as <-. rewrite repeat_length. split; auto.
      intros m Hm. cbn. apply nth_error_nth. now apply nth_repeat. }
    destruct Lr as [Lr Lv].
    assert (S1 : shape J M (upd u idx row)).
    { destruct Sh as [L F]. split; [now rewrite upd_length|]. now apply Forall_upd. }
    destruct (IH _ _ _ H S1) as (S' & Hv). split; auto. intros j m Hj Hm. rewrite Hv by auto. clear Hv IH.
    destruct (Nat.lt_ge_cases j idx).
    + replace (j - S idx) with 0 by lia. replace (j - idx) with 0 by lia.
      replace (S idx <=? j) with false by (symmetry; apply Nat.leb_gt; lia).
      replace (idx <=? j) with false by (symmetry; apply Nat.leb_gt; lia).
      unfold at2. rewrite nth_upd_nth by auto. replace (j =? idx) with false by (symmetry; apply Nat.eqb_neq; lia).
      now destruct rows.
    + replace (idx <=? j) with true by (symmetry; apply Nat.leb_le; lia).
      destruct (Nat.eq_dec j idx) as [-> |].
      * replace (idx - idx) with 0 by lia. cbn [nth_error].
        replace (S idx <=? idx) with false by (symmetry; apply Nat.leb_gt; lia).
        unfold at2. rewrite nth_upd_nth by auto. rewrite Nat.eqb_refl.
        rewrite Lv by auto. now destruct (nth_error rows (idx - S idx)).
      * replace (j - idx) with (S (j - S idx)) by lia. cbn [nth_error].
        replace (S idx <=? j) with true by (symmetry; apply Nat.leb_le; lia).
        unfold at2. rewrite nth_upd_nth by auto. now replace (j =? idx) with false by (symmetry; apply Nat.eqb_neq; lia).
Qed.
Lemma first_shape J M lim st u : first_pulse J M lim st = Ok u -> shape J M u.
Proof.
  unfold first_pulse. destruct st as [s|].
  - intros H. apply bind_inv in H as (rows & _ & H). apply (copy_rows_shape J M) in H; [tauto|apply zero_shape].
  - intros [= <-]. apply zero_shape.
Qed.

(** Ordered products. *)
Fixpoint fprod {A : Alg} (one : Op A) (Us : list (Op A)) (n : nat) : Op A :=
  match n with O => one | S n => omul A (nth n Us one) (fprod one Us n) end.
Fixpoint bprod {A : Alg} (one : Op A) (M : nat) (Us : list (Op A)) (n : nat) : Op A :=
  match n with O => one | S n => omul A (odag A (nth (M - 2 - n) Us one)) (bprod one M Us n) end.
Lemma fb_ok {A : Alg} (one : Op A) M Us : length Us = M - 1 ->
  exists fl bl, fb_lists one M Us = Ok (fl, bl) /\ length fl = M - 1 /\ length bl = M - 1 /\
    forall m, m < M - 1 -> nth m fl one = fprod one Us (S m) /\ nth m bl one = bprod one M Us (M - 2 - m).
Proof.
  intros L. unfold fb_lists.
  match goal with |- context [for_each _ ?B _] => destruct (for_range (fun k '(uf, fl, ub, bl) =>
     uf = fprod one Us k /\ length fl = k /\ ub = bprod one M Us k /\ length bl = k /\
     (forall m, m < k -> nth m fl one = fprod one Us (S m)) /\
     (forall m, m < k -> nth m bl one = bprod one M Us (k - 1 - m))) B (M - 1) (one, [], one, [])) as ([[[uf fl] ub] bl] & -> & H) end.
  - cbn. splits; auto; intros; lia.
  - intros k [[[uf fl] ub] bl] Hk (-> & Lf & -> & Lb & Hf & Hb).
    rewrite (get_ok Us k (nth k Us one)) by (apply nth_of; lia). cbn [bind]. cbv zeta.
    rewrite (get_ok Us (M - 2 - k) (nth (M - 2 - k) Us one)) by (apply nth_of; lia). cbn [bind].
    eexists. split; [reflexivity|]. cbv beta iota. splits.
    + reflexivity.
    + rewrite app_length. cbn. lia.
    + reflexivity.
    + cbn. lia.
    + intros m Hm. destruct (Nat.eq_dec m k) as [-> |].
      * rewrite app_nth2 by lia. now rewrite Lf, Nat.sub_diag.
      * rewrite app_nth1 by lia. apply Hf. lia.
    + intros m Hm. destruct m as [|m].
      * cbn [nth]. f_equal. lia.
      * cbn [nth]. rewrite Hb by lia. f_equal. lia.
  - destruct H as (_ & Lf & _ & Lb & Hf & Hb). cbn [bind]. cbv beta iota. exists fl, bl. splits; auto.
    intros m Hm. split; auto. rewrite Hb by auto. f_equal. lia.
Qed.

Section Run.
Context {A : Alg} (one : Op A) (dim : nat) (g : gargs (Op A)).
Notation Op := (Op A).
Notation M := (length (g_times g)).
Notation J := (length (g_H g)).

Lemma slots_length n dt u Us : slot_unitaries g n dt u = Ok Us -> length Us = n - 1.
Proof. intros H. apply map_res_length in H. rewrite H. unfold range. now rewrite seq_length. Qed.
Lemma step_M dt : time_step g = Ok dt -> 2 <= M.
Proof.
  unfold time_step. intros H. apply bind_inv in H as (t & H & _). apply get_inv, nth_lt in H. lia.
Qed.

Definition updates (pen : R -> nat -> R -> C -> C)
  (update : gargs Op -> nat -> nat -> option (R * R) -> R -> R -> list Op -> list Op -> pulse -> Res pulse) : Prop :=
  2 <= M -> forall lim dt eps fl bl u, length fl = M - 1 -> length bl = M - 1 -> shape J M u ->
  exists v, update g M J lim dt eps fl bl u = Ok v /\ is_next g (val one dim g (pen dt) lim dt eps fl bl u) v.
Lemma updates_py : updates (py_pen g) (update_py dim).
Proof. intros HM lim dt eps fl bl u. now apply update_py_next. Qed.
Lemma updates_cy : updates (cy_pen g) (update_cy dim).
Proof. intros HM lim dt eps fl bl u. now apply update_cy_next. Qed.

(** What one iteration does. *)
Definition iterates (pen : R -> nat -> R -> C -> C) (lim : option (R * R)) (eps dt : R) (u v : pulse) (fl : list Op) : Prop :=
  shape J M u /\ exists Us bl, slot_unitaries g M dt u = Ok Us /\ fb_lists one M Us = Ok (fl, bl) /\
    length fl = M - 1 /\ length bl = M - 1 /\
    (forall m, m < M - 1 -> nth m fl one = fprod one Us (S m) /\ nth m bl one = bprod one M Us (M - 2 - m)) /\
    is_next g (val one dim g (pen dt) lim dt eps fl bl u) v.

Lemma run_spec pen update res : updates pen update -> grape_run one update g = Ok res ->
  exists eps lim u0, step_size g = Ok eps /\ read_limits (g_limits g) = Ok lim /\
    first_pulse J M lim (g_start g) = Ok u0 /\
    2 <= g_R g /\ length (o_u res) = g_R g /\ nth_error (o_u res) 0 = Some u0 /\
    Forall (shape J M) (o_u res) /\
    (J <> 0 -> nth_error (o_u res) (g_R g - 1) = Some (o_Ht res)) /\
    exists dt, time_step g = Ok dt /\
    (forall r, r < g_R g - 1 -> exists u v fl, nth_error (o_u res) r = Some u /\ nth_error (o_u res) (r + 1) = Some v /\
       iterates pen lim eps dt u v fl /\
       (r = g_R g - 2 -> o_Uf res = Some (nth (M - 2) fl one))).
Proof.
  intros HU H. unfold grape_run in H.
  apply bind_inv in H as (eps & Ee & H). apply bind_inv in H as (lim & El & H).
  apply bind_inv in H as (u0 & E0 & H). apply bind_inv in H as (us & Eu & H).
  apply bind_inv in H as ([u last] & Eloop & H). apply bind_inv in H as (ht & Eht & H).
  destruct last as [fl|]; [|discriminate]. apply bind_inv in H as (uf & Euf & H). injection H as <-.
  pose proof (first_shape _ _ _ _ _ E0) as S0.
  assert (HR : 2 <= g_R g).
  { destruct (Nat.lt_ge_cases (g_R g) 2); auto.
    replace (g_R g - 1) with 0 in Eloop by lia. cbn in Eloop. discriminate. }
  assert (Eus : us = u0 :: repeat (zero_pulse J M) (g_R g - 1)).
  { destruct (g_R g); [lia|]. now injection Eu as <-. }
  clear Eu. subst us.
  exists eps, lim, u0. splits; auto.
  all: cbn [o_u o_Ht o_Uf].
  all: pose proof (for_range_inv (S := list pulse * option (list Op)) (fun k '(u, last) =>
      length u = g_R g /\ nth_error u 0 = Some u0 /\ Forall (shape J M) u /\
      (k <> 0 -> exists dt fl, time_step g = Ok dt /\ last = Some fl /\ length fl = M - 1 /\ 2 <= M /\
         forall r, r < k -> exists u' v fl', nth_error u r = Some u' /\ nth_error u (r + 1) = Some v /\
            iterates pen lim eps dt u' v fl' /\ (r = k - 1 -> fl' = fl))) _ _ _ _ Eloop) as Q.
  all: cbv beta iota in Q; destruct Q as (Lu & N0 & F & Q).
  all: try (splits; [cbn; rewrite repeat_length; lia|reflexivity| |intros; lia];
    constructor; auto; apply Forall_forall; intros x Hx; apply repeat_spec in Hx as ->; apply zero_shape).
  all: try (intros k [u1 l1] [u2 l2] Hk (L1 & N1 & F1 & Q1) Hb;
    apply bind_inv in Hb as (dt & Edt & Hb); apply bind_inv in Hb as (ur & Er & Hb);
    apply bind_inv in Hb as (Us & Es & Hb); apply bind_inv in Hb as ([fl0 bl0] & Ef & Hb);
    apply bind_inv in Hb as (v & Ev & Hb); apply bind_inv in Hb as (u3 & Es3 & Hb); injection Hb as <- <-;
    pose proof (step_M _ Edt) as HM; pose proof (slots_length _ _ _ _ Es) as LUs;
    destruct (fb_ok one M Us LUs) as (fl1 & bl1 & Ef1 & Lf & Lb & Hfb); rewrite Ef in Ef1; injection Ef1 as <- <-;
    apply get_inv in Er; assert (Sr : shape J M ur) by (eapply Forall_forall in F1; [exact F1|]; eapply nth_error_In; eauto);
    destruct (HU HM lim dt eps fl0 bl0 ur Lf Lb Sr) as (v' & Ev' & Hn); rewrite Ev in Ev'; injection Ev' as <-;
    apply set_inv in Es3 as (Hlt & ->); splits;
    [now rewrite upd_length
    |now rewrite nth_upd_neq by lia
    |apply Forall_upd; auto; apply Hn
    |intros _; exists dt, fl0; splits; auto; intros r Hr;
     destruct (Nat.eq_dec r k) as [-> |Hrk];
     [exists ur, v, fl0; splits; [rewrite nth_upd_neq by lia; auto|now rewrite nth_upd_eq by lia| |auto];
      split; auto; exists Us, bl0; splits; auto
     |assert (Hk0 : k <> 0) by lia; destruct (Q1 Hk0) as (dt1 & fl2 & Edt1 & _ & _ & _ & Q2);
      rewrite Edt in Edt1; injection Edt1 as <-;
      destruct (Q2 r ltac:(lia)) as (u' & v1 & fl3 & Ha & Hb2 & Hi & _);
      exists u', v1, fl3; splits; auto; [rewrite nth_upd_neq by lia; auto|rewrite nth_upd_neq by lia; auto|intros; lia]]]).
  - auto.
  - auto.
  - auto.
  - intros HJ. replace (J =? 0) with false in Eht by (symmetry; now apply Nat.eqb_neq). now apply get_inv.
  - destruct (Q ltac:(lia)) as (dt & fl2 & Edt & [= <-] & Lf & HM & Q2). exists dt. split; auto.
    intros r Hr. destruct (Q2 r Hr) as (u' & v & fl' & Ha & Hb & Hi & Hl). exists u', v, fl'. splits; auto.
    intros ->. rewrite Hl by lia. apply get_inv in Euf. f_equal. symmetry. apply nth_error_nth. rewrite Lf in Euf.
    now replace (M - 2) with (M - 1 - 1) by lia.
Qed.

(** The two versions run alike when their updates have the same penalties. *)
Lemma run_same pen up1 up2 : updates pen up1 -> updates pen up2 ->
  grape_run one up1 g = grape_run one up2 g.
Proof.
  intros H1 H2. unfold grape_run.
  destruct (step_size g) as [eps|]; cbn [bind]; auto.
  destruct (read_limits (g_limits g)) as [lim|]; cbn [bind]; auto.
  destruct (first_pulse J M lim (g_start g)) as [u0|] eqn:E0; cbn [bind]; auto.
  pose proof (first_shape _ _ _ _ _ E0) as S0.
  match goal with |- bind ?m _ = _ => destruct m as [us|] eqn:Eu end; cbn [bind]; auto.
  match goal with |- bind (for_each _ ?B1 _) _ = bind (for_each _ ?B2 _) _ =>
    rewrite (for_range_ext (S := list pulse * option (list Op)) (fun k '(u, _) => Forall (shape J M) u) B1 B2); [reflexivity| |] end.
  - destruct (g_R g).
    + assert (us = []) as -> ; [|constructor]. destruct (g_start g) as [s|]; [destruct (length (start_rows s) =? 0)|]; congruence.
    + injection Eu as <-. constructor; auto. apply Forall_forall. intros x Hx. apply repeat_spec in Hx as ->. apply zero_shape.
  - intros k [u l] Hk F. cbv beta iota.
    destruct (time_step g) as [dt|] eqn:Edt; cbn [bind]; [|split; [auto|intros s1 E1; discriminate E1]].
    destruct (get u k) as [ur|] eqn:Eur; cbn [bind]; [|split; [auto|intros s1 E1; discriminate E1]].
    destruct (slot_unitaries g M dt ur) as [Us|] eqn:Es; cbn [bind]; [|split; [auto|intros s1 E1; discriminate E1]].
    destruct (fb_ok one M Us (slots_length _ _ _ _ Es)) as (fl & bl & -> & Lf & Lb & _). cbn [bind].
    assert (Sr : shape J M ur).
    { apply get_inv, nth_error_In in Eur. eapply Forall_forall in F; eauto. }
    destruct (H1 (step_M _ Edt) lim dt eps fl bl ur Lf Lb Sr) as (v & -> & N1).
    destruct (H2 (step_M _ Edt) lim dt eps fl bl ur Lf Lb Sr) as (w & -> & N2).
    rewrite <- (is_next_unique g _ v w N1 N2). cbn [bind]. split; auto.
    intros [u' l'] E. apply bind_inv in E as (u1 & E & E'). injection E' as <- _.
    apply set_inv in E as (_ & ->). apply Forall_upd; auto. apply N1.
Qed.
End Run.

Section Total.
Context {A : Alg} (one : Op A) (dim : nat) (g : gargs (Op A)).
Notation Op := (Op A).
Notation M := (length (g_times g)).
Notation J := (length (g_H g)).

Lemma run_total pen update eps lim u0 dt : updates one dim g pen update ->
  step_size g = Ok eps -> read_limits (g_limits g) = Ok lim -> first_pulse J M lim (g_start g) = Ok u0 ->
  time_step g = Ok dt -> 2 <= g_R g ->
  (forall u, shape J M u -> exists Us, slot_unitaries g M dt u = Ok Us) ->
  exists res, grape_run one update g = Ok res.
Proof.
  intros HU Ee El E0 Edt HR HS. unfold grape_run. rewrite Ee, El. cbn [bind]. rewrite E0. cbn [bind].
  pose proof (first_shape _ _ _ _ _ E0) as S0. pose proof (step_M g _ Edt) as HM.
  destruct (g_R g) as [|[|n]] eqn:ER; [lia|lia|].
  cbn [bind]. rewrite Edt.
  match goal with |- context [for_each _ ?B ?s0] =>
    destruct (for_range (S := list pulse * option (list Op)) (fun k '(u, last) =>
      length u = S (S n) /\ Forall (shape J M) u /\ (k <> 0 -> exists fl, last = Some fl /\ length fl = M - 1)) B (S (S n) - 1) s0)
      as ([u last] & -> & Lu & F & Q) end.
  - splits; [cbn; now rewrite repeat_length| |intros; lia].
    constructor; auto. apply Forall_forall. intros x Hx. apply (repeat_spec (S n)) in Hx as ->. apply zero_shape.
  - intros k [u last] Hk (Lu & F & _). cbv beta iota. cbn [bind].
    destruct (nth_ex u k) as (ur & Er); [lia|]. rewrite (get_ok _ _ _ Er). cbn [bind].
    assert (Sr : shape J M ur) by (eapply Forall_forall in F; [exact F|]; eapply nth_error_In; eauto).
    destruct (HS ur Sr) as (Us & Es). rewrite Es. cbn [bind].
    destruct (fb_ok one M Us (slots_length g _ _ _ _ Es)) as (fl & bl & -> & Lf & Lb & _). cbn [bind].
    destruct (HU HM lim dt eps fl bl ur Lf Lb Sr) as (v & -> & N1 & _). cbn [bind].
    rewrite set_ok by lia. cbn [bind]. eexists. split; [reflexivity|]. cbv beta iota. splits.
    + now rewrite upd_length.
    + now apply Forall_upd.
    + intros _. eauto.
  - cbn [bind]. cbv beta iota. destruct (Q ltac:(lia)) as (fl & -> & Lf).
    assert (exists ht, (if J =? 0 then Ok [] else get u (S (S n) - 1)) = Ok ht) as (ht & ->).
    { destruct (J =? 0); [eauto|]. destruct (nth_ex u (S (S n) - 1)) as (x & Ex); [lia|]. exists x. now apply get_ok. }
    cbn [bind]. destruct (nth_ex fl (length fl - 1)) as (x & Ex); [lia|]. rewrite (get_ok _ _ _ Ex). cbn [bind]. eauto.
Qed.
End Total.
