(** Lemmas about the list operations and loops of [Model/Base.v]. *)
From Verif.Model Require Import Base.

Lemma get_ok {X} (l : list X) k x : nth_error l k = Some x -> get l k = Ok x.
Proof. unfold get; intros ->; reflexivity. Qed.

Lemma get_inv {X} (l : list X) k x : get l k = Ok x -> nth_error l k = Some x.
Proof. unfold get; destruct nth_error; congruence. Qed.

Lemma getf_ok {X} (l : list (option X)) k x : nth_error l k = Some (Some x) -> getf l k = Ok x.
Proof. unfold getf; intros H; rewrite (get_ok _ _ _ H); reflexivity. Qed.

Lemma getf_inv {X} (l : list (option X)) k x : getf l k = Ok x -> nth_error l k = Some (Some x).
Proof.
  unfold getf, bind, get; destruct nth_error as [[y|]|]; cbn; congruence.
Qed.

Lemma upd_length {X} (l : list X) k v : length (upd l k v) = length l.
Proof. revert k; induction l; intros [|k]; cbn; auto. Qed.

Lemma set_ok {X} (l : list X) k v : k < length l -> set l k v = Ok (upd l k v).
Proof. unfold set; intros H; apply Nat.ltb_lt in H; rewrite H; reflexivity. Qed.

Lemma set_inv {X} (l : list X) k v l' : set l k v = Ok l' -> k < length l /\ l' = upd l k v.
Proof.
  unfold set; destruct (k <? length l) eqn:E; [|congruence].
  apply Nat.ltb_lt in E; intros [= <-]; auto.
Qed.

Lemma nth_upd {X} (l : list X) k v i :
  nth_error (upd l k v) i =
  if Nat.eq_dec i k then if lt_dec k (length l) then Some v else None else nth_error l i.
Proof.
  revert k i; induction l as [|x l IH]; intros k i; cbn [upd length].
  - destruct (Nat.eq_dec i k); [|reflexivity].
    destruct lt_dec; [lia|]. destruct i; reflexivity.
  - destruct k as [|k], i as [|i]; cbn [nth_error];
      rewrite ?IH; repeat match goal with
      | |- context [Nat.eq_dec ?x ?y] => destruct (Nat.eq_dec x y); try lia
      | |- context [lt_dec ?x ?y] => destruct (lt_dec x y); try lia
      end; auto.
Qed.

Lemma nth_upd_eq {X} (l : list X) k v : k < length l -> nth_error (upd l k v) k = Some v.
Proof. intros; rewrite nth_upd. destruct (Nat.eq_dec k k), (lt_dec k (length l)); congruence. Qed.

Lemma nth_upd_neq {X} (l : list X) k v i : i <> k -> nth_error (upd l k v) i = nth_error l i.
Proof. intros; rewrite nth_upd. destruct Nat.eq_dec; congruence. Qed.

Lemma nth_ex {X} (l : list X) k : k < length l -> exists x, nth_error l k = Some x.
Proof.
  intros H; destruct (nth_error l k) eqn:E; eauto.
  apply nth_error_None in E; lia.
Qed.

Lemma nth_lt {X} (l : list X) k x : nth_error l k = Some x -> k < length l.
Proof. intros H; apply nth_error_Some; congruence. Qed.

Lemma list_ext {X} (l1 l2 : list X) :
  length l1 = length l2 -> (forall k, k < length l1 -> nth_error l1 k = nth_error l2 k) -> l1 = l2.
Proof.
  revert l2; induction l1 as [|x l1 IH]; intros [|y l2]; cbn; try discriminate; auto.
  intros E H; f_equal.
  - specialize (H 0 ltac:(lia)); cbn in H; congruence.
  - apply IH; [lia|]. intros k Hk; apply (H (S k)); lia.
Qed.

Lemma nth_repeat {X} (x : X) n k : k < n -> nth_error (repeat x n) k = Some x.
Proof. revert k; induction n; intros [|k] H; cbn; try lia; auto. apply IHn; lia. Qed.

Lemma firstn_S {X} (l : list X) k x : nth_error l k = Some x -> firstn (S k) l = firstn k l ++ [x].
Proof.
  revert k; induction l as [|y l IH]; intros [|k] H; cbn in *; try discriminate; try congruence.
  f_equal; apply IH; auto.
Qed.

Lemma skipn_cons {X} (l : list X) k x : nth_error l k = Some x -> skipn k l = x :: skipn (S k) l.
Proof.
  revert k; induction l as [|y l IH]; intros [|k] H; cbn in *; try discriminate; try congruence.
  apply IH; auto.
Qed.

(** Loop rules. *)
Lemma for_each_app {S} l1 l2 (body : nat -> S -> Res S) s :
  for_each (l1 ++ l2) body s = (s' <- for_each l1 body s;; for_each l2 body s').
Proof. revert s; induction l1; intros s; cbn; auto. destruct (body a s); cbn; auto. Qed.

Lemma for_range {S} (P : nat -> S -> Prop) (body : nat -> S -> Res S) n s :
  P 0 s ->
  (forall k s, k < n -> P k s -> exists s', body k s = Ok s' /\ P (1 + k) s') ->
  exists s', for_each (range n) body s = Ok s' /\ P n s'.
Proof.
  intros H0 Hs. unfold range.
  assert (G : forall p i s, i + p = n -> P i s ->
    exists s', for_each (seq i p) body s = Ok s' /\ P n s').
  { induction p; intros i s' E HP; cbn.
    - exists s'; split; auto. now replace n with i by lia.
    - destruct (Hs i s' ltac:(lia) HP) as (s1 & -> & HP1); cbn.
      apply IHp; auto; lia. }
  apply (G n 0 s); auto.
Qed.

Lemma for_down {S} (P : nat -> S -> Prop) (body : nat -> S -> Res S) n s :
  P n s ->
  (forall k s, k < n -> P (1 + k) s -> exists s', body k s = Ok s' /\ P k s') ->
  exists s', for_each (range_down n) body s = Ok s' /\ P 0 s'.
Proof.
  unfold range_down. revert s. induction n; intros s H0 Hs.
  - cbn; eauto.
  - rewrite seq_S, rev_app_distr; cbn.
    destruct (Hs n s ltac:(lia) H0) as (s1 & -> & HP1); cbn.
    apply IHn; auto.
Qed.

(** Partial correctness version: the loop is known to have succeeded. *)
Lemma for_range_inv {S} (P : nat -> S -> Prop) (body : nat -> S -> Res S) n s s' :
  for_each (range n) body s = Ok s' ->
  P 0 s ->
  (forall k s s', k < n -> P k s -> body k s = Ok s' -> P (1 + k) s') ->
  P n s'.
Proof.
  intros HR H0 Hs. unfold range in HR.
  assert (G : forall p i s, i + p = n -> P i s -> for_each (seq i p) body s = Ok s' -> P n s').
  { induction p; intros i s1 E HP; cbn.
    - intros [= <-]; now replace n with i by lia.
    - destruct (body i s1) as [s2|] eqn:Eb; cbn; [|discriminate].
      apply IHp; [lia|]. eapply Hs; eauto; lia. }
  eapply (G n 0 s); eauto.
Qed.

Lemma bind_ok {X Y} (m : Res X) (f : X -> Res Y) x : m = Ok x -> bind m f = f x.
Proof. intros ->; reflexivity. Qed.

Lemma bind_inv {X Y} (m : Res X) (f : X -> Res Y) y :
  bind m f = Ok y -> exists x, m = Ok x /\ f x = Ok y.
Proof. destruct m; cbn; [eauto|discriminate]. Qed.

Lemma Forall_upd {X} (P : X -> Prop) l k v : Forall P l -> P v -> Forall P (upd l k v).
Proof.
  intros F Hv; revert k; induction F; intros [|k]; cbn; constructor; auto.
Qed.

