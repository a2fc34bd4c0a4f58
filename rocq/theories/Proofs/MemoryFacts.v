(** Facts for [Props/PropsMemory.v]. *)
From Coq Require Import Reals Lia.
From RecordUpdate Require Import RecordUpdate.
From Verif.Model Require Import Base Dyn Memory.
From Verif.Spec Require Import Evolution History MatAlg Physics Memory.
Local Open Scope nat_scope.
Set Bullet Behavior "Strict Subproofs".

Section Memory.
Context {A : Alg} (dim : Op A -> nat) (stored : Op A -> option nat).
Notation setmem := (set_memory_optimizations dim stored).
Notation init := (init_memory dim stored).
Notation step := (mstep dim stored).
Notation runs := (mruns dim stored).

Lemma setmem_ok p m m' : setmem p m = Ok m' ->
  m_level m' = m_level m /\
  kept_or (m_ph m) (negb (0 <? m_level m)%Z) (m_ph m') /\ kept_or (m_pg m) (negb (0 <? m_level m)%Z) (m_pg m') /\
  kept_or (m_adj m) (negb (0 <? m_level m)%Z) (m_adj m') /\ kept_or (m_sp m) (1 <? m_level m)%Z (m_sp m') /\
  match m_dtype m with
  | Some t => m_dtype m' = Some t
  | None => ((0 < m_level m)%Z /\ m_dtype m' = Some TQobj) \/
            ((m_level m <= 0)%Z /\ exists o, all_added p = Ok o /\ m_dtype m' = Some (by_density (dim o) (entries dim stored o)))
  end.
Proof.
  unfold set_memory_optimizations, choose_oper_dtype, entries. intros E.
  destruct m as [lv dt ph pg adj sp]. cbn [m_level m_dtype m_ph m_pg m_adj m_sp] in *.
  assert (T : exists dt', (match dt with None => if (0 <? lv)%Z then Some TQobj else match all_added p with Ok o => Some (by_density (dim o) (entries dim stored o)) | Raise _ => None end | Some t => Some t end) = Some dt' /\
     m' = (let m := mkMem lv (Some dt') ph pg adj sp in
        let m := match m_ph m with None => m <| m_ph := Some (negb (0 <? m_level m)%Z) |> | Some _ => m end in
        let m := match m_pg m with None => m <| m_pg := Some (negb (0 <? m_level m)%Z) |> | Some _ => m end in
        let m := match m_adj m with None => m <| m_adj := Some (negb (0 <? m_level m)%Z) |> | Some _ => m end in
        match m_sp m with None => m <| m_sp := Some (1 <? m_level m)%Z |> | Some _ => m end)).
  { destruct dt as [t|]; [exists t; split; auto; cbn in E; injection E; auto|].
    destruct (0 <? lv)%Z; [exists TQobj; split; auto; cbn in E; injection E; auto|].
    destruct (all_added p) as [o|]; [|discriminate]. eexists; split; [reflexivity|]. cbn in E. injection E. auto. }
  destruct T as (dt' & T & ->). destruct ph, pg, adj, sp; cbn; repeat (apply conj; [reflexivity|]);
  (destruct dt as [t|]; [injection T as <-; auto|]; case_eq (0 <? lv)%Z; intros Q; rewrite Q in T;
   [left; split; [apply Z.ltb_lt; auto|congruence]|right; split; [apply Z.ltb_ge; auto|]];
   destruct (all_added p) as [o|]; [|discriminate]; exists o; split; auto; congruence).
Qed.
Lemma setmem_raise p m e : setmem p m = Raise e -> m_dtype m = None /\ (m_level m <= 0)%Z /\ all_added p = Raise e.
Proof.
  unfold set_memory_optimizations, choose_oper_dtype. destruct (m_dtype m); [discriminate|].
  case_eq (0 <? m_level m)%Z; intros Q; [discriminate|]. apply Z.ltb_ge in Q. destruct (all_added p); [discriminate|]. cbn. intros [= ->]. auto.
Qed.
Lemma added_raise (p : problem A) x : all_added p = Raise x -> x = IndexError.
Proof.
  unfold all_added. destruct (pr_drift p) as [o|[|o l]], (pr_ctrls p) as [l'|[|c rows]]; cbn; congruence.
Qed.
Lemma init_cases p m m' e : init p m = (m', e) ->
  (setmem p m = Ok m' /\ ((m_sp m' = Some true /\ dim (pr_initial p) <= 2 /\ e = Some ValueError) \/
     (~ (m_sp m' = Some true /\ dim (pr_initial p) <= 2) /\ m_dtype m' = Some TOther /\ e = Some ValueError) \/
     (~ (m_sp m' = Some true /\ dim (pr_initial p) <= 2) /\ m_dtype m' <> Some TOther /\ e = None))) \/
  (exists x, setmem p m = Raise x /\ m' = m /\ e = Some x).
Proof.
  unfold init_memory. case_eq (setmem p m); [|intros x Ex [= <- <-]; right; eauto]. intros m1 E1 E. left.
  destruct (m_sp m1) as [[|]|] eqn:Es.
  - destruct (Nat.leb_spec (dim (pr_initial p)) 2).
    + injection E as <- <-. split; auto.
    + destruct (m_dtype m1) as [[| |]|] eqn:Ed; injection E as <- <-; split; auto; right; [right|right|left|right]; rewrite ?Ed; repeat split; try congruence; intros []; lia.
  - destruct (m_dtype m1) as [[| |]|] eqn:Ed; injection E as <- <-; split; auto; right; [right|right|left|right]; rewrite ?Ed; repeat split; try congruence; intros []; congruence.
  - destruct (m_dtype m1) as [[| |]|] eqn:Ed; injection E as <- <-; split; auto; right; [right|right|left|right]; rewrite ?Ed; repeat split; try congruence; intros []; congruence.
Qed.
Lemma setmem_decided p m m' : setmem p m = Ok m' -> decided m'.
Proof.
  intros E. destruct (setmem_ok p m m' E) as (_ & H1 & H2 & H3 & H4 & H5). unfold decided.
  repeat split; [destruct (m_dtype m); [congruence|destruct H5 as [[_ ->]|(_ & o & _ & ->)]; discriminate]| | | |];
  match goal with H : kept_or ?b _ ?a |- ?a <> None => destruct b; cbn in H; congruence end.
Qed.
Lemma setmem_same p m : decided m -> setmem p m = Ok m.
Proof.
  destruct m as [lv dt ph pg adj sp]. unfold decided; cbn. intros (D1 & D2 & D3 & D4 & D5).
  destruct dt, ph, pg, adj, sp; try congruence; try (exfalso; auto; fail). reflexivity.
Qed.
Lemma same_refl m : same_decisions m m.
Proof. unfold same_decisions; auto. Qed.
Lemma same_decided m m' : same_decisions m m' -> decided m -> decided m'.
Proof. unfold same_decisions, decided. intros (E1 & E2 & E3 & E4 & E5). rewrite E1, E2, E3, E4, E5. auto. Qed.
Lemma same_trans m m' m'' : same_decisions m m' -> same_decisions m' m'' -> same_decisions m m''.
Proof. unfold same_decisions. intuition congruence. Qed.
Lemma step_same c m p : no_option c -> decided m -> same_decisions m (fst (fst (step c (m, p)))).
Proof.
  intros Hc D. destruct c; try contradiction; cbn; try apply same_refl.
  - unfold same_decisions; auto.
  - case_eq (init p m). intros m' e E. cbn. destruct (init_cases p m m' e E) as [(E' & _)|(x & _ & -> & _)]; [|apply same_refl].
    rewrite setmem_same in E' by auto. injection E' as <-. apply same_refl.
Qed.
Lemma runs_same l : forall m p, Forall no_option l -> decided m -> same_decisions m (fst (runs l (m, p))).
Proof.
  induction l as [|c l IH]; intros m p F D; [apply same_refl|]. inversion F as [|? ? Hc F']; subst. cbn [mruns fold_left].
  pose proof (step_same c m p Hc D) as S. destruct (step c (m, p)) as [[m1 p1] e]. cbn [fst] in *.
  eapply same_trans; [exact S|]. apply IH; auto. eapply same_decided; eauto.
Qed.
Lemma runs_sparse l : forall m p b, Forall not_sparse l -> m_sp m = Some b -> m_sp (fst (runs l (m, p))) = Some b.
Proof.
  induction l as [|c l IH]; intros m p b F D; auto. inversion F as [|? ? Hc F']; subst. cbn [mruns fold_left].
  assert (S : m_sp (fst (fst (step c (m, p)))) = Some b).
  { destruct c; try contradiction; cbn; auto. case_eq (init p m). intros m' e E. cbn.
    destruct (init_cases p m m' e E) as [(E' & _)|(x & _ & -> & _)]; auto. destruct (setmem_ok p m m' E') as (_ & _ & _ & _ & H & _). rewrite D in H. exact H. }
  destruct (step c (m, p)) as [[m1 p1] e]. apply IH; auto.
Qed.
Lemma memory_same (s : settings A) m m' : same_problem (with_memory m s) (with_memory m' s).
Proof. constructor; reflexivity. Qed.
End Memory.

Lemma ready_memory N rt q (s : settings (MatAlg N rt)) n m mem a ops : ready N rt q s n m a ops -> 0 < m ->
  ready N rt q (with_memory mem s) n m a ops.
Proof.
  intros [[W1 W2 W3 W4 W5 W6] SP HD Ha F] P. constructor; [constructor; auto|destruct SP; constructor; auto| |exact Ha|exact F].
  intros E. destruct (HD E) as [[H1 H2] X]. split; [constructor|]; auto.
Qed.
