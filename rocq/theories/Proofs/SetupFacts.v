(** Facts about Model/Setup.v. *)
From Coq Require Import Reals Lra String Ascii.
From Coquelicot Require Import Coquelicot.
From Verif.Lib Require Import Mat.
From Verif.Model Require Import Base Timeslots Str Setup.
From Verif.Spec Require Import Setups.
Local Open Scope nat_scope.
Local Set Bullet Behavior "Strict Subproofs".

Lemma map_res_map {A B C} (f : B -> Res C) (g : A -> B) (h : A -> C) l :
  (forall x, In x l -> f (g x) = Ok (h x)) -> map_res f (map g l) = Ok (map h l).
Proof.
  induction l as [|x l IH]; intros H; cbn; auto. rewrite H by now left. cbn. rewrite IH; auto. intros y Hy. apply H. now right.
Qed.
Lemma map_res_id {A B} (f : B -> Res A) (g : A -> B) l : (forall x, f (g x) = Ok x) -> map_res f (map g l) = Ok l.
Proof. intros H. rewrite (map_res_map _ _ (fun x => x)) by auto. now rewrite map_id. Qed.
Lemma map_res_inv {A B} (f : A -> Res B) l l' : map_res f l = Ok l' -> Forall2 (fun x y => f x = Ok y) l l'.
Proof.
  revert l'. induction l as [|x l IH]; cbn; intros l' H.
  - injection H as <-. constructor.
  - destruct (f x) as [y|] eqn:E; [|discriminate]. cbn in H. destruct (map_res f l) as [ys|]; [|discriminate].
    cbn in H. injection H as <-. constructor; auto.
Qed.
Lemma map_res_raise {A B} (f : A -> Res B) l e : map_res f l = Raise e -> exists x, In x l /\ f x = Raise e.
Proof.
  induction l as [|x l IH]; cbn; [discriminate|]. destruct (f x) as [y|e'] eqn:E; cbn.
  - destruct (map_res f l); [discriminate|]. cbn. intros [= ->]. destruct IH as (z & Hz & Ez); auto. exists z. auto.
  - intros [= ->]. exists x. auto.
Qed.

Section Containers.
Context {Op : Type}.
Variable av : value Op -> nat -> Res (list (value Op)).
Lemma is_q_map (l : list Op) : map_res (@is_q Op) (map Q l) = Ok l.
Proof. now apply map_res_id. Qed.
Lemma is_q_inv (l : list (value Op)) r : map_res (@is_q Op) l = Ok r -> l = map Q r.
Proof.
  intros H. apply map_res_inv in H. induction H as [|v o l r E F IH]; auto. cbn. rewrite <- IH. f_equal.
  destruct v; [|discriminate]. now injection E as <-.
Qed.
Lemma rows_q_inv (rows : list (list (value Op))) r : map_res (map_res (@is_q Op)) rows = Ok r -> rows = map (map Q) r.
Proof.
  intros H. apply map_res_inv in H. induction H as [|v o l r E F IH]; auto. cbn. rewrite <- IH. f_equal. now apply is_q_inv.
Qed.
Lemma check_holds c r : holds c r -> check_ctrls_container Op av c = Ok r.
Proof.
  intros [l|rows w Hn Hw|rows]; unfold check_ctrls_container.
  - assert (E : map_res (fun e : entry Op => match e with EVal v => is_q Op v | ERow _ => Raise TypeError end)
                        (map (fun o => EVal (Q o)) l) = Ok l) by now apply map_res_id.
    destruct l as [|o l]; [reflexivity|]. cbn [map bind] in *. now rewrite E.
  - destruct rows as [|r0 rows]; [congruence|].
    assert (E : map_res (fun e => assign_row Op av e (List.length (map (@Q Op) r0)))
                        (map (fun r => ERow (map (@Q Op) r)) (r0 :: rows)) = Ok (map (map Q) (r0 :: rows))).
    { apply map_res_map. intros x Hx. cbn. rewrite Forall_forall in Hw. rewrite !map_length.
      rewrite (Hw x Hx), (Hw r0 (or_introl eq_refl)), Nat.eqb_refl. reflexivity. }
    cbn [map] in *. rewrite E. cbn [bind].
    pose proof (map_res_id (map_res (@is_q Op)) (map Q) (r0 :: rows) is_q_map) as E2. cbn [map] in E2. rewrite E2. reflexivity.
  - cbn. rewrite (map_res_id (map_res (@is_q Op)) (map Q) rows) by apply is_q_map. reflexivity.
Qed.
Lemma holds_check c r : check_ctrls_container Op av c = Ok r -> holds c r \/ stretched c.
Proof.
  unfold check_ctrls_container. destruct c as [[|[v|r0] l]|rows| |]; cbn [bind]; try discriminate.
  - intros [= <-]. left. exact (holds_list []).
  - destruct (map_res _ _) as [x|] eqn:E; [|discriminate]. intros [= <-]. left.
    assert (H : EVal v :: l = map (fun o => EVal (Q o)) x).
    { apply map_res_inv in E. clear -E. induction E as [|e o l1 r1 E F IH]; auto. cbn. rewrite <- IH. f_equal.
      destruct e as [[]|]; try discriminate. now injection E as <-. }
    rewrite H. constructor.
  - destruct (map_res (fun e => assign_row Op av e _) _) as [rows|] eqn:E; [|discriminate]. cbn [bind].
    destruct (map_res (map_res _) rows) as [rr|] eqn:E2; [|discriminate]. cbn. intros [= <-].
    apply rows_q_inv in E2. subst rows. apply map_res_inv in E.
    assert (S : stretched (PList (ERow r0 :: l)) \/
                forall e, In e l -> match e with EVal _ => False | ERow q => List.length q = 1 -> List.length r0 = 1 end).
    { clear E. induction l as [|e l IH]; [right; intros e []|].
      destruct IH as [(x0 & rest & e' & [= <- <-] & H1 & H2)|IH].
      - left. exists r0, (e :: l), e'. repeat split; auto. now right.
      - destruct e as [v|q].
        + left. exists r0, (EVal v :: l), (EVal v). repeat split; auto. now left.
        + destruct (Nat.eq_dec (List.length q) 1) as [Hq|Hq], (Nat.eq_dec (List.length r0) 1) as [H0|H0];
            try (right; intros e [<-|He]; [intros; lia || auto|now apply IH]; fail).
          left. exists r0, (ERow q :: l), (ERow q). repeat split; auto. now left. }
    destruct S as [S|S]; auto. left.
    assert (H : forall l (rr : list (list Op)), Forall2 (fun e y => assign_row Op av e (List.length r0) = Ok y) l (map (map Q) rr) ->
       (forall e, In e l -> match e with EVal _ => False | ERow q => List.length q = 1 -> List.length r0 = 1 end) ->
       l = map (fun r => ERow (map Q r)) rr /\ Forall (fun r => List.length r = List.length r0) rr).
    { clear. intros l rr. revert l. induction rr as [|r rr IH]; intros l F S; inversion F as [|x y l1 l2 Hxy Hrest]; subst; [split; constructor|].
      destruct (IH _ Hrest) as [IH1 IH2]. { intros e He. apply S. now right. }
      specialize (S _ (or_introl eq_refl)). destruct x as [|q]; [destruct S|].
      cbn in Hxy. destruct (Nat.eqb_spec (List.length q) (List.length r0)) as [Hq|Hq].
      - injection Hxy as ->. cbn. rewrite IH1 at 1. split; auto. constructor; auto. now rewrite <- Hq, map_length.
      - destruct q as [|v [|]]; try discriminate. cbn in *. specialize (S eq_refl). lia. }
    assert (A : forall e, In e (ERow r0 :: l) -> match e with EVal _ => False | ERow q => List.length q = 1 -> List.length r0 = 1 end).
    { intros e [<-|He]; auto. now apply S. }
    destruct (H _ _ E A) as [H1 H2]. rewrite H1. apply holds_rows with (w := List.length r0); auto.
    destruct rr; [discriminate|]. discriminate.
  - destruct (map_res _ rows) as [rr|] eqn:E; [|discriminate]. intros [= <-]. apply rows_q_inv in E. subst. left. constructor.
Qed.
Lemma is_q_raise (l : list (value Op)) n : In (Other n) l -> map_res (@is_q Op) l = Raise TypeError.
Proof.
  induction l as [|v l IH]; [intros []|]. intros [->|H]; [reflexivity|]. cbn. destruct v; [|reflexivity]. cbn. now rewrite IH.
Qed.
Lemma in_raise {A B} (f : A -> Res B) l x e : In x l -> f x = Raise e -> exists e', map_res f l = Raise e'.
Proof.
  induction l as [|y l IH]; [intros []|]. intros [->|H] E; cbn.
  - rewrite E. cbn. eauto.
  - destruct (f y); cbn; eauto. destruct (IH H E) as [e' ->]. cbn. eauto.
Qed.
(** Something foreign is not accepted. *)
Lemma foreign_raise c : foreign c -> (forall r0 rest v, c = PList (ERow r0 :: rest) -> In (EVal v) rest -> False) ->
  (exists e, check_ctrls_container Op av c = Raise e) \/
  (exists r0 rest, c = PList (ERow r0 :: rest) /\ r0 = []).
Proof.
  intros F NV. unfold check_ctrls_container. destruct c as [[|[v|r0] l]|rows| |]; cbn [bind]; eauto.
  - destruct F as (e & [] & _).
  - destruct F as (e & He & Hv). left.
    assert (X : exists x, match e with EVal v => is_q Op v | ERow _ => Raise TypeError end = Raise x).
    { destruct e; [destruct Hv as [n ->]|]; cbn; eauto. }
    destruct X as [x Hx].
    destruct (in_raise (fun e => match e with EVal v => is_q Op v | ERow _ => Raise TypeError end) _ e x He Hx) as [e' ->]. cbn. eauto.
  - destruct r0 as [|v0 r0]; [right; eauto|]. left. destruct F as (e & He & Hv).
    destruct (map_res (fun e => assign_row Op av e _) _) as [rows|] eqn:E; [|cbn; eauto]. cbn [bind].
    apply map_res_inv in E.
    assert (G : exists r n, In r rows /\ In (Other n) r).
    { destruct e as [v|q].
      - exfalso. destruct He as [He|He]; [discriminate|]. eapply NV; eauto.
      - destruct Hv as [n Hn]. clear NV. revert E He. generalize (ERow (v0 :: r0) :: l). intros l' E He.
        induction E as [|x y l1 l2 Exy E IH]; [destruct He|]. destruct He as [->|He].
        + exists y, n. split; [now left|]. cbn in Exy. destruct (_ =? _) eqn:El; [now injection Exy as <-|].
          destruct q as [|v [|]]; try discriminate. injection Exy as <-. destruct Hn as [->|[]]. cbn. now left.
        + destruct (IH He) as (r & m & H1 & H2). exists r, m. split; auto. now right. }
    destruct G as (r & n & Hr & Hn).
    destruct (in_raise (map_res (@is_q Op)) rows r TypeError Hr (is_q_raise _ _ Hn)) as [e' ->]. cbn. eauto.
  - destruct F as (r & n & Hr & Hn). left.
    destruct (in_raise (map_res (@is_q Op)) rows r TypeError Hr (is_q_raise _ _ Hn)) as [e' ->]. cbn. eauto.
Qed.
Lemma check_raise c e : (forall v w e, av v w = Raise e -> e = TypeError \/ e = ValueError) ->
  check_ctrls_container Op av c = Raise e -> e = TypeError \/ e = ValueError.
Proof.
  intros Ha. assert (Q : forall (v : value Op) e, is_q Op v = Raise e -> e = TypeError) by (intros [] e'; cbn; congruence).
  assert (R : forall rows e, map_res (map_res (@is_q Op)) rows = Raise e -> e = TypeError).
  { intros rows e' H. apply map_res_raise in H as (x & _ & H). apply map_res_raise in H as (v & _ & H). eauto. }
  unfold check_ctrls_container. destruct c as [[|[v|r0] l]|rows| |]; cbn [bind]; try discriminate; try (intros [= <-]; auto; fail).
  - destruct (map_res _ _) as [x|x] eqn:E; [discriminate|]. intros [= <-]. apply map_res_raise in E as ([u|] & _ & H).
    + left. eauto.
    + injection H as <-. auto.
  - destruct (map_res (fun e => assign_row Op av e _) _) as [rows|x] eqn:E.
    + cbn [bind]. destruct (map_res (map_res _) rows) eqn:E2; [discriminate|]. intros [= <-]. left. eauto.
    + cbn [bind]. intros [= <-]. apply map_res_raise in E as ([u|q] & _ & H); [eauto|]. cbn in H.
      destruct (_ =? _); [discriminate|]. destruct q as [|? [|]]; try discriminate; injection H as <-; auto.
  - destruct (map_res _ rows) eqn:E2; [discriminate|]. intros [= <-]. left. eauto.
Qed.
End Containers.

Lemma join_tabbed l : join l = tabbed l.
Proof. induction l as [|x [|y l] IH]; auto. Qed.
Lemma cumulate_nth l : forall t k, k <= List.length l -> nth_error (cumulate t l) k = Some (t + begins l k)%R.
Proof.
  induction l as [|x l IH]; intros t [|k] Hk; cbn in *; try lia; try (f_equal; lra).
  rewrite IH by lia. f_equal. lra.
Qed.
Lemma cumulate_length l : forall t, List.length (cumulate t l) = S (List.length l).
Proof. induction l as [|x l IH]; intros t; cbn; auto. Qed.

Lemma close_false tol x y : close tol x y = false <-> (tol + rtol * Cmod y < Cmod (x - y)%C)%R.
Proof. unfold close. destruct (Rle_dec _ _); split; intros; try discriminate; auto; lra. Qed.
Lemma unitary_false tol A : is_unitary tol A = false <-> deviates tol A.
Proof.
  unfold is_unitary, deviates, range. split.
  - intros H. assert (G : ~ forall i j, i < nr A -> j < nr A -> close tol (ent (mid (nr A)) i j) (ent (mmul A (mdag A)) i j) = true).
    { intros G. assert (E : forallb (fun i => forallb (fun j => close tol (ent (mid (nr A)) i j) (ent (mmul A (mdag A)) i j)) (seq 0 (nr A))) (seq 0 (nr A)) = true).
      { apply forallb_forall. intros i Hi. apply forallb_forall. intros j Hj. apply in_seq in Hi, Hj. apply G; lia. }
      congruence. }
    assert (X : forall n m, n <= nr A -> m <= nr A ->
      (forall i j, i < n -> j < m -> close tol (ent (mid (nr A)) i j) (ent (mmul A (mdag A)) i j) = true) \/
      exists i j, i < n /\ j < m /\ close tol (ent (mid (nr A)) i j) (ent (mmul A (mdag A)) i j) = false).
    { induction n as [|n IHn]; intros m Hn Hm; [left; intros; lia|].
      destruct (IHn m ltac:(lia) Hm) as [Y|(i & j & H1 & H2 & H3)]; [|right; exists i, j; repeat split; auto; lia].
      assert (Z : (forall j, j < m -> close tol (ent (mid (nr A)) n j) (ent (mmul A (mdag A)) n j) = true) \/
                  exists j, j < m /\ close tol (ent (mid (nr A)) n j) (ent (mmul A (mdag A)) n j) = false).
      { clear Hm. induction m as [|m IHm]; [left; intros; lia|].
        destruct IHm as [Z|(j & H1 & H2)]; [intros; apply Y; lia| |right; exists j; split; auto; lia].
        destruct (close tol (ent (mid (nr A)) n m) (ent (mmul A (mdag A)) n m)) eqn:E.
        - left. intros j Hj. destruct (Nat.eq_dec j m) as [-> |]; auto. apply Z. lia.
        - right. exists m. split; auto. }
      destruct Z as [Z|(j & H1 & H2)]; [left|right; exists n, j; repeat split; auto].
      intros i j Hi Hj. destruct (Nat.eq_dec i n) as [-> |]; auto. apply Y; lia. }
    destruct (X (nr A) (nr A)) as [Y|(i & j & H1 & H2 & H3)]; auto; [contradiction|].
    exists i, j. repeat split; auto. cbv zeta. apply close_false in H3. unfold mid in H3. rewrite ent_tab in H3 by auto.
    unfold rtol in H3. replace (1 / 100000)%R with (/ 100000)%R by lra. exact H3.
  - intros (i & j & H1 & H2 & H3). cbv zeta in H3.
    apply Bool.not_true_is_false. intros E. rewrite forallb_forall in E.
    assert (E' := E i ltac:(apply in_seq; lia)). rewrite forallb_forall in E'. specialize (E' j ltac:(apply in_seq; lia)).
    assert (F : close tol (ent (mid (nr A)) i j) (ent (mmul A (mdag A)) i j) = false).
    { apply close_false. unfold mid. rewrite ent_tab by auto. unfold rtol.
      replace (/ 100000)%R with (1 / 100000)%R by lra. exact H3. }
    congruence.
Qed.

Lemma herm_true atol H : is_herm atol H = true <-> nearly_hermitian atol H.
Proof.
  unfold is_herm, nearly_hermitian, range. rewrite forallb_forall. split.
  - intros G i j Hi Hj. assert (X : In i (seq 0 (nr H))) by (apply in_seq; lia). specialize (G i X). cbv beta in G. rewrite forallb_forall in G.
    assert (Y : In j (seq 0 (nr H))) by (apply in_seq; lia). specialize (G j Y). cbv beta in G. destruct (Rlt_dec _ _); [auto|discriminate].
  - intros G i Hi. apply forallb_forall. intros j Hj. apply in_seq in Hi, Hj. destruct (Rlt_dec _ _) as [|X]; auto. destruct X. apply G; lia.
Qed.
Lemma unitary_true tol A : is_unitary tol A = true <-> ~ deviates tol A.
Proof. rewrite <- unitary_false. destruct (is_unitary tol A); split; congruence. Qed.

Lemma details_true tol atol level dec slots : forall s k u h e v a,
  In (Details k u h e v a) (fst (check_unitarity tol atol level (Some dec) s slots)) -> s <= k /\
  exists A H E V, nth_error slots (k - s) = Some (A, H) /\ nth_error (dc_eigen dec) k = Some E /\ nth_error (dc_vec dec) k = Some V /\
    (deviates tol A \/ 1 < level) /\
    (u = true <-> ~ deviates tol A) /\ (h = true <-> nearly_hermitian atol H) /\
    (e = true <-> ~ deviates tol E) /\ (v = true <-> ~ deviates tol V) /\
    match dc_adj dec with None => a = None | Some l => exists W b, nth_error l k = Some W /\ a = Some b /\ (b = true <-> ~ deviates tol W) end.
Proof.
  induction slots as [|[A H] slots IH]; intros s k u h e v a I; [destruct I|]. cbn [check_unitarity] in I.
  set (D := if negb (is_unitary tol A) || (1 <? level) then _ else _) in I.
  assert (HW : ~ In (Details k u h e v a) (if is_unitary tol A then [] else [Warning s])) by (destruct (is_unitary tol A); [intros []|intros [X|[]]; discriminate]).
  destruct D as [d|x] eqn:ED; [|destruct (HW I)].
  assert (HD : In (Details k u h e v a) d -> s <= k /\ exists A' H' E V, nth_error ((A, H) :: slots) (k - s) = Some (A', H') /\ nth_error (dc_eigen dec) k = Some E /\ nth_error (dc_vec dec) k = Some V /\
    (deviates tol A' \/ 1 < level) /\ (u = true <-> ~ deviates tol A') /\ (h = true <-> nearly_hermitian atol H') /\
    (e = true <-> ~ deviates tol E) /\ (v = true <-> ~ deviates tol V) /\
    match dc_adj dec with None => a = None | Some l => exists W b, nth_error l k = Some W /\ a = Some b /\ (b = true <-> ~ deviates tol W) end).
  { intros Id. unfold D in ED. destruct (negb (is_unitary tol A) || (1 <? level)) eqn:Ec; [|injection ED as <-; destruct Id].
    unfold Base.get in ED. destruct (nth_error (dc_eigen dec) s) as [E|] eqn:EE; [|discriminate]. destruct (nth_error (dc_vec dec) s) as [V|] eqn:EV; [|discriminate].
    cbn [bind] in ED.
    assert (Hc : deviates tol A \/ 1 < level).
    { apply Bool.orb_true_iff in Ec as [Ec|Ec]; [left; apply unitary_false; destruct (is_unitary tol A); auto; discriminate|right; now apply Nat.ltb_lt]. }
    destruct (dc_adj dec) as [l|].
    - destruct (nth_error l s) as [W|] eqn:EW; [|discriminate]. cbn [bind] in ED. injection ED as <-. destruct Id as [[= <- <- <- <- <- <-]|[]].
      split; auto. rewrite Nat.sub_diag. exists A, H, E, V. repeat (match goal with |- _ /\ _ => split end); auto; try apply unitary_true; try apply herm_true.
      exists W, (is_unitary tol W). repeat (match goal with |- _ /\ _ => split end); auto. apply unitary_true.
    - cbn [bind] in ED. injection ED as <-. destruct Id as [[= <- <- <- <- <- <-]|[]].
      split; auto. rewrite Nat.sub_diag. exists A, H, E, V. repeat (match goal with |- _ /\ _ => split end); auto; try apply unitary_true; try apply herm_true. }
  destruct (check_unitarity tol atol level (Some dec) (S s) slots) as [rest ee] eqn:ER. cbn [fst] in I.
  apply in_app_or in I as [I|I]; [destruct (HW I)|]. apply in_app_or in I as [I|I]; [auto|].
  specialize (IH (S s) k u h e v a). rewrite ER in IH. destruct (IH I) as (L & A' & H' & R). split; [lia|].
  exists A', H'. replace (k - s) with (S (k - S s)) by lia. exact R.
Qed.
Lemma details_there tol atol level dec n : List.length (dc_eigen dec) = n -> List.length (dc_vec dec) = n ->
  (forall l, dc_adj dec = Some l -> List.length l = n) -> forall slots s, s + List.length slots = n -> forall k A H, s <= k ->
  nth_error slots (k - s) = Some (A, H) -> deviates tol A \/ 1 < level ->
  exists u h e v a, In (Details k u h e v a) (fst (check_unitarity tol atol level (Some dec) s slots)).
Proof.
  intros He Hv Ha. assert (GT : forall (l : list mat) s, List.length l = n -> s < n -> exists x, Base.get l s = Ok x).
  { intros l s El Hs. unfold Base.get. destruct (nth_error l s) eqn:E; eauto. apply nth_error_None in E. lia. }
  induction slots as [|[A0 H0] slots IH]; intros s Hs k A H Hk Hn D; [destruct (k - s); discriminate|]. cbn in Hs. cbn [check_unitarity].
  destruct (GT (dc_eigen dec) s He ltac:(lia)) as [E EE]. destruct (GT (dc_vec dec) s Hv ltac:(lia)) as [V EV].
  assert (X : exists aa, match dc_adj dec with None => Ok None | Some l => a <- Base.get l s;; Ok (Some (is_unitary tol a)) end = Ok aa).
  { destruct (dc_adj dec) as [l|]; [|eauto]. destruct (GT l s (Ha l eq_refl) ltac:(lia)) as [W EW]. rewrite EW. cbn. eauto. }
  destruct X as [aa Eaa]. rewrite EE, EV, Eaa. cbn [bind].
  specialize (IH (S s) ltac:(lia)). destruct (check_unitarity tol atol level (Some dec) (S s) slots) as [rest ee].
  destruct (Nat.eq_dec k s) as [->|Nk].
  - rewrite Nat.sub_diag in Hn. injection Hn as -> ->.
    assert (Ec : negb (is_unitary tol A) || (1 <? level) = true).
    { apply Bool.orb_true_iff. destruct D as [D|D]; [left; apply unitary_false in D; now rewrite D|right; now apply Nat.ltb_lt]. }
    rewrite Ec. cbn [fst]. do 5 eexists. apply in_or_app. right. apply in_or_app. left. left. reflexivity.
  - destruct (IH k A H) as (u & h & e & v & a & I); auto; [lia|replace (k - s) with (S (k - S s)) in Hn by lia; exact Hn|]. cbn [fst] in I.
    exists u, h, e, v, a. destruct (negb (is_unitary tol A0) || (1 <? level)); cbn [fst]; apply in_or_app; right; apply in_or_app; right; auto.
Qed.
