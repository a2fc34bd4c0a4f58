(** Lemmas about Model/DumpEvo.v. *)
From Coq Require Import Reals.
From Coquelicot Require Import Complex.
From RecordUpdate Require Import RecordUpdate.
From Verif.Model Require Import Base Str Dyn Dump DumpEvo.
From Verif.Spec Require Import Evolution History Dumps.
From Verif.Lib Require Import Lists.
From Verif.Proofs Require Import DynInv DynRun DynHist DynHistory DynProps DumpFacts.
Local Open Scope string_scope.
Local Open Scope list_scope.
Set Bullet Behavior "Strict Subproofs".

(** ** The state after an evolution, in the lists themselves *)
Section Raw.
Context {A : Alg}.
Variables (s : settings A) (n m : nat).
Hypothesis W : well_posed s n m.
Hypothesis RO : routines_ok s n m.

Lemma raw_dg a d : Good s n m a d -> d_evo_cur d = true -> d_dg d = map Some (gens_of s a).
Proof.
  intros G C. pose proof (good_dyn_gen s n m W RO a d G C) as H.
  destruct G as (dr & c & _ & _ & _ & _ & I).
  rewrite <- H. unfold get_dyn_gen. destruct (d_dg_q d) eqn:E; auto. cbn. symmetry. eapply inv_dgq; eauto.
Qed.
Lemma raw_prop a d : Good s n m a d -> d_evo_cur d = true -> d_prop d = map Some (props_of s a).
Proof.
  intros G C. pose proof (good_prop s n m W RO a d G C) as H.
  destruct G as (dr & c & _ & _ & _ & _ & I).
  rewrite <- H. unfold get_prop. destruct (d_prop_q d) eqn:E; auto. cbn. symmetry. eapply inv_propq; eauto.
Qed.
Lemma raw_fwd a d : Good s n m a d -> d_evo_cur d = true ->
  d_fwd d = map (fun k => Some (evolve (firstn k (props_of s a)) (s_initial s))) (seq 0 (S n)).
Proof.
  intros G C. pose proof (good_fwd s n m a d G C) as H.
  destruct G as (dr & c & _ & _ & _ & _ & I).
  rewrite <- H. unfold get_fwd_evo. rewrite (fwd_value s n m dr c a d I). destruct (d_fwd_q d) eqn:E; auto. cbn. symmetry. eapply inv_fwdq; eauto.
Qed.
Lemma raw_onto a d : s_fid s = FUnit -> Good s n m a d -> d_onto d <> None.
Proof.
  intros HF (dr & c & _ & _ & _ & _ & I) E.
  destruct (st_onto _ _ _ _ _ _ (inv_st _ _ _ _ _ _ _ I) HF) as (l & El & _). congruence.
Qed.
Lemma raw_onwd a d : s_fid s = FTrace -> Good s n m a d -> d_onwd d <> None.
Proof.
  intros HF (dr & c & _ & _ & _ & _ & I) E.
  destruct (st_onwd _ _ _ _ _ _ (inv_st _ _ _ _ _ _ _ I) HF) as (l & El & _). congruence.
Qed.
Lemma raw_amps a d : Good s n m a d -> d_amps d = Some a.
Proof. intros (dr & c & _ & _ & _ & _ & I). apply (inv_amps _ _ _ _ _ _ _ I). Qed.

Lemma fill_list {X} (l : list (option X)) (P : nat -> X -> Prop) :
  (forall k, k < length l -> exists x, nth_error l k = Some (Some x) /\ P k x) ->
  exists l', l = map Some l' /\ forall k x, nth_error l' k = Some x -> P k x.
Proof.
  revert P. induction l as [|o l IH]; intros P H.
  - exists []. split; auto. intros [|k] x; discriminate.
  - destruct (H 0 ltac:(cbn; lia)) as (x & E & Px). cbn in E. injection E as ->.
    destruct (IH (fun k => P (S k))) as (l' & -> & Q). { intros k Hk. apply (H (S k)). cbn; lia. }
    exists (x :: l'). split; auto. intros [|k] y; cbn; [|apply Q]. now intros [= ->].
Qed.
Lemma fill_rows {X} (pg : list (list (option X))) : forall (P : nat -> nat -> X -> Prop),
  (forall k row, nth_error pg k = Some row -> forall j, j < length row -> exists x, nth_error row j = Some (Some x) /\ P k j x) ->
  exists G, pg = map (map Some) G /\ forall k row j x, nth_error G k = Some row -> nth_error row j = Some x -> P k j x.
Proof.
  induction pg as [|r pg IH]; intros P H.
  - exists []. split; auto. intros [|k]; discriminate.
  - destruct (fill_list r (P 0)) as (r' & -> & Q). { intros j Hj. apply (H 0 r eq_refl j Hj). }
    destruct (IH (fun k => P (S k))) as (G & -> & Q'). { intros k row E. apply (H (S k) row E). }
    exists (r' :: G). split; auto. intros [|k] row j x; cbn; [|apply Q']. intros [= <-]. apply Q.
Qed.
Lemma raw_pg a d : grad_exact (s_prop s) && s_cache_pg s = true -> Good s n m a d -> d_evo_cur d = true ->
  exists G, d_pg d = Some (map (map Some) G) /\ length G = n /\ Forall (fun r => length r = m) G /\
    forall k row j g, nth_error G k = Some row -> nth_error row j = Some g -> dslot (xgrad s) s a k j = Some g.
Proof.
  intros He GG C. pose proof GG as (dr & c & _ & _ & _ & _ & I).
  destruct (st_pg _ _ _ _ _ _ (inv_st _ _ _ _ _ _ _ I) He) as (pg & Epg & L & Fo).
  assert (E : snd (get_prop_grads d) = Some pg).
  { unfold get_prop_grads. rewrite Epg. destruct (d_pg_q d) eqn:Eq; auto. cbn. rewrite <- Epg. symmetry. eapply inv_pgq; eauto. }
  rewrite Forall_forall in Fo.
  destruct (fill_rows pg (fun k j g => dslot (xgrad s) s a k j = Some g)) as (G & EG & Q).
  { intros k row Er j Hj. assert (Hk : k < n) by (rewrite <- L; exact (nth_lt _ _ _ Er)). rewrite (Fo row (nth_error_In _ _ Er)) in Hj.
    destruct (good_pg s n m W RO a d k j He GG C Hk Hj) as (pg' & row' & g & Q1 & Q2 & Q3 & Q4).
    rewrite E in Q1. injection Q1 as <-. pose proof (eq_trans (eq_sym Er) Q2) as Q. injection Q as <-. eauto. }
  exists G. rewrite Epg, EG. splits; auto.
  - rewrite EG in L. rewrite <- L. symmetry. apply map_length.
  - apply Forall_forall. intros r Hr. rewrite <- (map_length Some). apply Fo. rewrite EG. now apply in_map.
Qed.
End Raw.

(** ** What is written *)
Section Write.
Context {A : Alg}.

Lemma then_ok (l : list (tok A)) w : and_then (l, None) w = (l ++ fst w, snd w).
Proof. reflexivity. Qed.
Lemma slots_ok {X} label : forall (gens : list X) (os : list (Op A)) (x : buf A) k,
  length os = length gens ->
  (forall i o, nth_error os i = Some o -> nth_error x (k + i) = Some (Some o)) ->
  slots_from label (Some x) k gens = (labelled label k os, None).
Proof.
  induction gens as [|g gens IH]; intros [|o os] x k L H; try discriminate; cbn [slots_from labelled]; auto.
  pose proof (H 0 o eq_refl) as E. rewrite Nat.add_0_r in E.
  rewrite (IH os x (S k)).
  - unfold save_at. rewrite (get_ok _ _ _ E). reflexivity.
  - now injection L.
  - intros i o' Ei. rewrite Nat.add_succ_l, <- Nat.add_succ_r. now apply H.
Qed.
Lemma slots_none {X} label (gens : list X) k : gens <> [] ->
  slots_from (A := A) label None k gens = ([Txt (label k)], Some TypeError).
Proof. destruct gens; [contradiction|reflexivity]. Qed.
Lemma row_ok k : forall (l : list (Op A)) j, row_from k j (map Some l) = (labelled_row k j l, None).
Proof. induction l as [|o l IH]; intros j; cbn [row_from labelled_row map]; auto. rewrite IH. reflexivity. Qed.
Lemma rows_ok : forall (G : list (list (Op A))) k, rows_from k (map (map Some) G) = (labelled_rows k G, None).
Proof. induction G as [|r G IH]; intros k; cbn [rows_from labelled_rows map]; auto. rewrite IH, row_ok. reflexivity. Qed.

Lemma per_slot_ok label (gs os : list (Op A)) x :
  length os = length gs -> (forall i o, nth_error os i = Some o -> nth_error x i = Some (Some o)) ->
  per_slot label (Some (map Some gs)) (Some x) = (labelled label 0 os, None).
Proof. intros L H. cbn [per_slot]. apply slots_ok; auto. now rewrite map_length. Qed.

Lemma nth_map_some {X} (l : list X) i o : nth_error l i = Some o -> nth_error (map Some l) i = Some (Some o).
Proof. intros H. rewrite nth_error_map, H. reflexivity. Qed.

(** Separate files. *)
Lemma mwrite_eq p t (fs : mfiles (A := A)) : mwrite p t fs p = Some t.
Proof. unfold mwrite. now rewrite String.eqb_refl. Qed.
Lemma mwrite_ne p q t (fs : mfiles (A := A)) : q <> p -> mwrite p t fs q = fs q.
Proof. unfold mwrite. intros H. apply String.eqb_neq in H. now rewrite H. Qed.
Lemma kind_file_inj dir base ext idx k k' : kind_file dir base ext idx k = kind_file dir base ext idx k' -> k = k'.
Proof.
  unfold kind_file. intros E. apply (path_join_inj dir base) in E. apply (sapp_inj_l "evo") in E.
  apply sapp_inj_l in E. apply (sapp_inj_l "-") in E. rewrite <- !sapp_assoc in E.
  apply sapp_inj_r in E. now apply sapp_inj_r in E.
Qed.
Lemma write_sections_ok name : (forall a b, name a = name b -> a = b) -> forall (l : list (sect (A := A))) fs,
  NoDup (map sc_file l) -> Forall (fun s => snd (sc_body s) = None) l ->
  snd (write_sections name l fs) = None /\
  (forall s, In s l -> fst (write_sections name l fs) (name (sc_file s)) = Some (fst (sc_body s))) /\
  (forall p, (forall s, In s l -> p <> name (sc_file s)) -> fst (write_sections name l fs) p = fs p).
Proof.
  intros inj. induction l as [|s l IH]; intros fs ND Fo; cbn [write_sections].
  - splits; auto. intros s [].
  - inversion ND as [|? ? N ND']; subst. inversion Fo as [|? ? E Fo']; subst. rewrite E.
    destruct (IH (mwrite (name (sc_file s)) (fst (sc_body s)) fs) ND' Fo') as (I1 & I2 & I3). splits; auto.
    + intros s' [<-|H]; auto. rewrite I3; [apply mwrite_eq|].
      intros s' H' E'. apply inj in E'. apply N. rewrite E'. now apply in_map.
    + intros p H. rewrite I3 by (intros; apply H; now right). apply mwrite_ne. apply H. now left.
Qed.
Lemma write_sections_stop name : (forall a b, name a = name b -> a = b) -> forall (before : list (sect (A := A))) x after e fs,
  NoDup (map sc_file (before ++ [x])) -> Forall (fun s => snd (sc_body s) = None) before -> snd (sc_body x) = Some e ->
  let r := write_sections name (before ++ x :: after) fs in
  snd r = Some e /\
  (forall s, In s (before ++ [x]) -> fst r (name (sc_file s)) = Some (fst (sc_body s))) /\
  (forall p, (forall s, In s (before ++ [x]) -> p <> name (sc_file s)) -> fst r p = fs p).
Proof.
  intros inj. induction before as [|s l IH]; intros x after e fs ND Fo X; cbn [write_sections app].
  - rewrite X. splits; auto.
    + intros s [<-|[]]. apply mwrite_eq.
    + intros p H. apply mwrite_ne. apply H. now left.
  - inversion ND as [|? ? N ND']; subst. inversion Fo as [|? ? E Fo']; subst. rewrite E.
    destruct (IH x after e (mwrite (name (sc_file s)) (fst (sc_body s)) fs) ND' Fo' X) as (I1 & I2 & I3). splits; auto.
    + intros s' [<-|H]; auto. rewrite I3; [apply mwrite_eq|].
      intros s' H' E'. apply inj in E'. apply N. rewrite E'. now apply in_map.
    + intros p H. rewrite I3 by (intros; apply H; now right). apply mwrite_ne. apply H. now left.
Qed.
Lemma write_sections_fail name : (forall a b, name a = name b -> a = b) -> forall (before : list (sect (A := A))) x after e fs fs' e',
  NoDup (map sc_file (before ++ x :: after)) -> Forall (fun s => snd (sc_body s) = None) before -> snd (sc_body x) = Some e ->
  write_sections name (before ++ x :: after) fs = (fs', e') ->
  e' = Some e /\ (forall s, In s (before ++ [x]) -> fs' (name (sc_file s)) = Some (fst (sc_body s))) /\
  (forall s, In s after -> fs' (name (sc_file s)) = fs (name (sc_file s))).
Proof.
  intros inj before x after e fs fs' e' ND Fo X W.
  assert (S : before ++ x :: after = (before ++ [x]) ++ after) by (rewrite <- app_assoc; reflexivity).
  assert (D : NoDup (map sc_file (before ++ [x])) /\ forall s s', In s (before ++ [x]) -> In s' after -> sc_file s <> sc_file s').
  { rewrite S, map_app in ND. revert ND. generalize (before ++ [x]). clear. induction l as [|y l IH]; cbn; intros ND; [split; [constructor|tauto]|].
    inversion ND as [|? ? N ND']; subst. destruct (IH ND') as [I1 I2]. split.
    - constructor; auto. intros I. apply N. apply in_or_app. auto.
    - intros s s' [<-|I] I'; auto. intros E. apply N. rewrite E. apply in_or_app. right. now apply in_map. }
  destruct D as [D1 D2]. pose proof (write_sections_stop name inj before x after e fs D1 Fo X) as R. rewrite W in R. cbn in R.
  destruct R as (R1 & R2 & R3). splits; auto. intros s I. apply R3. intros s' I' E. apply inj in E. apply (D2 s' s I' I). auto.
Qed.
Lemma sections_nodup (i : item A) : NoDup (map sc_file (sections i)).
Proof.
  destruct i as [idx [x1|] [x2|] [x3|] [x4|] [x5|] [x6|] [x7|]]; cbn;
    repeat (constructor; [cbn; intros H; repeat (destruct H as [H|H]; [discriminate H|]); exact H|]); constructor.
Qed.
End Write.

(** ** DynamicsDump *)
Section DynLogs.
Context {A : Alg} {F : Type}.
Variable fmt : sval F -> string -> string.
Notation ddump := (ddump A F).
Notation dcall := (dcall A F).
Notation drun := (drun (A := A) fmt).
Notation dstep := (dstep (A := A) fmt).

Definition dfixed (d0 d : ddump) : Prop :=
  dd_write d = dd_write d0 /\ dd_dir d = dd_dir d0 /\ dd_ext d = dd_ext d0 /\ dd_base d = dd_base d0 /\
  dd_sep d = dd_sep d0 /\ (dd_sumfile d = None \/ dd_sumfile d = Some (dsummary_name d0)).

Record DInv (d0 : ddump) (cs : list dcall) (s : dstate A F) : Prop := {
  di_fix : dfixed d0 (s_dump s);
  di_idx : forall k sm, nth_error (dd_sums (s_dump s)) k = Some sm -> sm "idx"%string = SInt k;
  di_items : forall k i, nth_error (dd_items (s_dump s)) k = Some i -> it_idx i = k;
  di_link : forall sm, In sm (dd_sums (s_dump s)) -> recorded_from cs (dd_items (s_dump s)) sm;
  di_text : dd_write d0 = true -> dd_sums (s_dump s) <> [] ->
    s_text s (dsummary_name d0) = Some (table fmt evo_cols (dd_sep d0) (dd_sums (s_dump s)));
}.

Lemma drun_snoc cs c s : drun (cs ++ [c]) s = fst (dstep c (drun cs s)).
Proof. unfold DumpEvo.drun. rewrite fold_left_app. reflexivity. Qed.

Lemma recorded_more cs c items i sm : recorded_from cs items sm -> recorded_from (A := A) (F := F) (cs ++ [c]) (items ++ i) sm.
Proof.
  intros (d & ecs & st & sw & H1 & H2 & H3). exists d, ecs, st, sw. splits; auto.
  - apply in_or_app; auto.
  - destruct H3 as [H|(H & k & K1 & K2)]; [left; auto|right]. split; auto. exists k. split; auto.
    rewrite nth_error_app1; auto. now apply nth_error_Some; rewrite K2.
Qed.

Lemma dinv_step d0 cs c s : DInv d0 cs s -> DInv d0 (cs ++ [c]) (fst (dstep c s)).
Proof.
  intros [Fx Ix It Li Te]. destruct s as [dd tx dt]. cbn [s_dump s_text s_data] in *.
  destruct c as [d ecs st|sw|]; cbn [DumpEvo.dstep].
  - unfold dump_current. cbn [s_dump].
    (* the items *)
    set (step1 := if d_any (dd_sw dd) then _ else _).
    assert (P : exists s1 idx e, step1 = (s1, idx, e) /\
       (exists new, s_dump s1 = dd <| dd_items := dd_items dd ++ new |> /\
          (forall k i, nth_error (dd_items dd ++ new) k = Some i -> it_idx i = k) /\
          ((d_any (dd_sw dd) = false /\ idx = SNone) \/
           (d_any (dd_sw dd) = true /\ exists i, idx = SInt i /\ nth_error (dd_items dd ++ new) i = Some (capture (dd_sw dd) i d)))) /\
       s_text s1 = tx).
    { unfold step1. destruct (d_any (dd_sw dd)) eqn:Any.
      - assert (Q : forall k i, nth_error (dd_items dd ++ [capture (dd_sw dd) (length (dd_items dd)) d]) k = Some i -> it_idx i = k).
        { intros k i H. apply nth_snoc in H as [H|[-> ->]]; auto. }
        assert (Q2 : nth_error (dd_items dd ++ [capture (dd_sw dd) (length (dd_items dd)) d]) (length (dd_items dd)) =
                     Some (capture (dd_sw dd) (length (dd_items dd)) d)).
        { rewrite nth_error_app2, Nat.sub_diag by lia. reflexivity. }
        unfold add_evo_dump. cbn [s_dump s_data].
        match goal with |- context [if dd_write ?x then _ else _] => destruct (dd_write x) end.
        + destruct (writeout_kinds _ _ _ _ _) as [fs e] eqn:Ewk.
          exists (mkDS (dd <| dd_items := dd_items dd ++ [capture (dd_sw dd) (length (dd_items dd)) d] |>) tx fs), (SInt (length (dd_items dd))), e.
          splits; auto. eexists. splits; [reflexivity| |]; auto. right. split; auto. eauto.
        + exists (mkDS (dd <| dd_items := dd_items dd ++ [capture (dd_sw dd) (length (dd_items dd)) d] |>) tx dt), (SInt (length (dd_items dd))), None.
          splits; auto. eexists. splits; [reflexivity| |]; auto. right. split; auto. eauto.
      - exists (mkDS dd tx dt), SNone, None. splits; auto. exists []. rewrite app_nil_r. splits; auto. now destruct dd. }
    destruct P as (s1 & idx & e & E & (new & Ed & It' & Lk) & Et). rewrite E. clear E step1.
    destruct s1 as [dd1 tx1 dt1]. cbn [s_dump s_text s_data] in *. subst tx1.
    assert (S1 : dd_sums dd1 = dd_sums dd) by now subst dd1.
    assert (W1 : dd_write dd1 = dd_write dd) by now subst dd1.
    assert (F1 : dfixed d0 dd1) by now subst dd1.
    assert (I1 : dd_items dd1 = dd_items dd ++ new) by now subst dd1.
    assert (X1 : DInv d0 (cs ++ [Evolved d ecs st]) (mkDS dd1 tx dt1)).
    { constructor; cbn [s_dump s_text]; rewrite ?S1, ?I1; auto.
      intros sm H. apply recorded_more. auto. }
    destruct e as [e|]; cbn [fst]; auto.
    destruct (ds_summary (dd_sw dd1)); cbn [fst]; auto.
    unfold add_evo_comp_summary. cbn [s_dump s_text s_data].
    match goal with |- context [dd1 <| dd_sums := dd_sums dd1 ++ [?it] |>] => set (nw := it) end.
    set (dd2 := dd1 <| dd_sums := dd_sums dd1 ++ [nw] |>).
    assert (NI : nw "idx"%string = SInt (length (dd_sums dd1))) by (unfold nw; destruct st as [[[? ?] ?]|]; reflexivity).
    assert (NE : nw "evo_dump_idx"%string = idx) by (unfold nw; destruct st as [[[? ?] ?]|]; reflexivity).
    assert (NO : forall a, ~ set_by_dump a -> nw a = ecs a).
    { intros a Ha. unfold set_by_dump in Ha. cbn in Ha.
      assert (Hs : forall x (v : sval F) it, x <> a -> set_attr x v it a = it a).
      { intros x v it Hx. unfold set_attr. destruct (String.eqb_spec a x); congruence. }
      unfold nw. destruct st as [[[? ?] ?]|]; rewrite ?Hs by (intros <-; apply Ha; tauto); reflexivity. }
    assert (IX : forall k sm, nth_error (dd_sums dd1 ++ [nw]) k = Some sm -> sm "idx"%string = SInt k).
    { intros k sm H. apply nth_snoc in H as [H|[-> ->]]; auto. apply Ix. now rewrite <- S1. }
    assert (LK : forall sm, In sm (dd_sums dd1 ++ [nw]) -> recorded_from (cs ++ [Evolved d ecs st]) (dd_items dd1) sm).
    { intros sm H. apply in_app_or in H as [H|[<-|[]]].
      - apply (di_link _ _ _ X1). exact H.
      - exists d, ecs, st, (dd_sw dd). splits; auto.
        + apply in_or_app; cbn; auto.
        + rewrite NE, I1. destruct Lk as [[Q1 Q2]|(Q1 & i & Q2 & Q3)]; [left; auto|right; split; eauto]. }
    assert (F2 : dfixed d0 dd2) by exact F1.
    assert (W2 : dd_write dd2 = dd_write d0) by apply F2. rewrite W2.
    destruct (dd_write d0) eqn:W.
    + assert (SF : exists dd3, dsummary_file dd2 = (dd3, dsummary_name d0) /\ dfixed d0 dd3 /\ dd_sums dd3 = dd_sums dd2 /\ dd_items dd3 = dd_items dd2).
      { destruct F2 as (K1 & K2 & K3 & K4 & K5 & [K6|K6]); unfold dsummary_file; rewrite K6.
        - eexists. splits.
          + unfold dsummary_name. rewrite K2, K3, K4. reflexivity.
          + unfold dfixed; cbn; splits; auto.
          + reflexivity.
          + reflexivity.
        - exists dd2. splits; auto. }
      destruct SF as (dd3 & -> & F3 & S3 & I3).
      constructor; cbn [s_dump s_text]; rewrite ?S3, ?I3; auto.
      * intros k i H. apply It'. rewrite <- I1. exact H.
      * intros _ _. assert (Sep : dd_sep dd3 = dd_sep d0) by apply F3. rewrite Sep.
        change (dd_sums dd2) with (dd_sums dd1 ++ [nw]). rewrite S1.
        destruct (dd_sums dd) as [|s0 l] eqn:L.
        -- cbn [length Nat.eqb app]. unfold write. rewrite put_eq. now rewrite table_one.
        -- cbn [length Nat.eqb]. unfold append. rewrite put_eq, (Te eq_refl) by discriminate. now rewrite table_snoc.
    + constructor; cbn [s_dump s_text]; auto; try congruence.
      intros k i H. apply It'. rewrite <- I1. exact H.
  - constructor; cbn; auto. intros sm H. rewrite <- (app_nil_r (dd_items dd)). apply recorded_more. auto.
  - constructor; cbn; auto; try congruence; try contradiction; intros [|k]; discriminate.
Qed.

Lemma dinv_run d0 tx dt cs : dfresh d0 -> DInv d0 cs (drun cs (mkDS d0 tx dt)).
Proof.
  intros (E1 & E2 & E3). induction cs as [|c cs IH] using rev_ind.
  - cbn. constructor; cbn; rewrite ?E2, ?E3; auto; try contradiction; try congruence.
    + unfold dfixed. splits; auto.
    + intros [|k]; discriminate.
    + intros [|k]; discriminate.
  - rewrite drun_snoc. now apply dinv_step.
Qed.

Lemma dinv_on d0 cs later s : DInv d0 cs s -> DInv d0 (cs ++ later) (drun later s).
Proof.
  revert cs s. induction later as [|c later IH]; intros cs s I.
  - rewrite app_nil_r. exact I.
  - change (drun (c :: later) s) with (drun later (fst (dstep c s))).
    change (cs ++ c :: later) with (cs ++ [c] ++ later). rewrite app_assoc. apply IH. now apply dinv_step.
Qed.
Lemma dinv_clear d0 cs s : DInv d0 cs s -> DInv d0 [] (dclear s).
Proof. intros [Fx _ _ _ _]. constructor; cbn; auto; try congruence; try contradiction; intros [|k]; discriminate. Qed.
Lemma dstep_sizes c s :
  length (dd_sums (s_dump (fst (dstep c s)))) <= S (length (dd_sums (s_dump s))) /\
  length (dd_items (s_dump (fst (dstep c s)))) <= S (length (dd_items (s_dump s))).
Proof.
  destruct s as [dd tx dt]. destruct c as [d ecs st|sw|]; cbn [DumpEvo.dstep]; [|cbn; lia|cbn; lia].
  unfold dump_current. cbn [s_dump].
  set (step1 := if d_any (dd_sw dd) then _ else _).
  assert (P : exists s1 idx e, step1 = (s1, idx, e) /\ dd_sums (s_dump s1) = dd_sums dd /\
     length (dd_items (s_dump s1)) <= S (length (dd_items dd))).
  { unfold step1. destruct (d_any (dd_sw dd)); [|do 3 eexists; splits; [reflexivity| |]; cbn; auto].
    unfold add_evo_dump. cbn [s_dump s_data].
    match goal with |- context [if dd_write ?x then _ else _] => destruct (dd_write x) end.
    - destruct (writeout_kinds _ _ _ _ _) as [fs e]. do 3 eexists. splits; [reflexivity| |]; cbn; auto. rewrite app_length. cbn. lia.
    - do 3 eexists. splits; [reflexivity| |]; cbn; auto. rewrite app_length. cbn. lia. }
  destruct P as (s1 & idx & e & E & S1 & I1). rewrite E. clear E step1. destruct e; cbn [fst]; [rewrite S1; lia|].
  destruct (ds_summary _); cbn [fst]; [|rewrite S1; lia].
  destruct s1 as [dd1 tx1 dt1]. cbn [s_dump] in *.
  unfold add_evo_comp_summary. cbn [s_dump].
  match goal with |- context [if dd_write ?x then _ else _] => destruct (dd_write x) end.
  - unfold dsummary_file. destruct (dd_sumfile _); cbn; rewrite ?app_length, S1; cbn; lia.
  - cbn; rewrite ?app_length, S1; cbn; lia.
Qed.
Lemma drun_sizes cs : forall s,
  length (dd_sums (s_dump (drun cs s))) <= length cs + length (dd_sums (s_dump s)) /\
  length (dd_items (s_dump (drun cs s))) <= length cs + length (dd_items (s_dump s)).
Proof.
  induction cs as [|c cs IH]; intros s; [cbn; lia|]. change (drun (c :: cs) s) with (drun cs (fst (dstep c s))).
  specialize (IH (fst (dstep c s))). pose proof (dstep_sizes c s). cbn [length]. lia.
Qed.
End DynLogs.
