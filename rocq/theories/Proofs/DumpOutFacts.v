(** Facts for [Props/PropsDumpOut.v]. *)
From Coq Require Import Reals DecimalString.
From RecordUpdate Require Import RecordUpdate.
From Verif.Model Require Import Base Str Dyn Dump DumpEvo DumpOut.
From Verif.Spec Require Import Dumps.
From Verif.Proofs Require Import DynRun DumpFacts DumpEvoFacts.
Local Open Scope string_scope.
Local Open Scope list_scope.
Set Bullet Behavior "Strict Subproofs".

Section Out.
Context {A : Alg} {F : Type}.
Variable fmt : sval F -> string -> string.
Notation attrs := (attrs (F := F)).
Notation dstate := (dstate A F).

Lemma kinds_ok dir base ext (i : item A) fs : writable i -> snd (writeout_kinds dir base ext i fs) = None.
Proof.
  intros H. unfold writeout_kinds.
  apply (write_sections_ok (kind_file dir base ext (it_idx i)) (kind_file_inj dir base ext (it_idx i)) (sections i) fs (sections_nodup i) H).
Qed.
Lemma items_snoc dir base ext (l : list (item A)) i fs : Forall writable l ->
  items_out dir base ext (l ++ [i]) fs = writeout_kinds dir base ext i (fst (items_out dir base ext l fs)).
Proof.
  intros H. revert fs. induction H as [|j l Hj H IH]; intros fs; cbn [items_out app fst].
  - destruct (writeout_kinds dir base ext i fs) as [fs' [e|]]; reflexivity.
  - pose proof (kinds_ok dir base ext j fs Hj) as K. destruct (writeout_kinds dir base ext j fs) as [fs' e]. cbn in K. subst e. apply IH.
Qed.
Lemma items_ok dir base ext (l : list (item A)) fs : Forall writable l -> snd (items_out dir base ext l fs) = None.
Proof.
  intros H. revert fs. induction H as [|j l Hj H IH]; intros fs; cbn [items_out]; auto.
  pose proof (kinds_ok dir base ext j fs Hj) as K. destruct (writeout_kinds dir base ext j fs) as [fs' e]. cbn in K. subst e. apply IH.
Qed.
Lemma text_snoc cols sep (l : list attrs) it : summary_text fmt cols sep (l ++ [it]) =
  (summary_text fmt cols sep l ++ (match it "idx" with SInt 0 => head_text fmt cols sep it | _ => line_text fmt cols sep it end))%string.
Proof. unfold summary_text. rewrite fold_left_app. reflexivity. Qed.

(** The summary recorded. *)
Definition new_sum (n : nat) (ecs : attrs) (st : option (nat * nat * nat)) (idx : sval F) : attrs :=
  match st with
  | None => set_attr "evo_dump_idx" idx (set_attr "idx" (SInt n) ecs)
  | Some (a, b, c) => set_attr "grad_func_call_num" (SInt c) (set_attr "fid_func_call_num" (SInt b) (set_attr "iter_num" (SInt a)
       (set_attr "evo_dump_idx" idx (set_attr "idx" (SInt n) ecs))))
  end.
Lemma new_sum_idx n ecs st idx : new_sum n ecs st idx "idx" = SInt n.
Proof. destruct st as [[[a b] c]|]; reflexivity. Qed.

(** What both runs have in common, and what has been written in the one. *)
Record J (d : ddump A F) (text : files) (data : mfiles (A := A)) (s s' : dstate) : Prop := {
  j_sw : dd_sw (s_dump s') = dd_sw (s_dump s);
  j_items : dd_items (s_dump s') = dd_items (s_dump s);
  j_sums : dd_sums (s_dump s') = dd_sums (s_dump s);
  j_fix : forall x, x = s_dump s \/ x = s_dump s' -> dd_dir x = dd_dir d /\ dd_base x = dd_base d /\ dd_ext x = dd_ext d /\ dd_sep x = dd_sep d;
  j_on : dd_write (s_dump s) = true; j_off : dd_write (s_dump s') = false;
  j_file : forall p, dd_sumfile (s_dump s) = Some p -> p = dsummary_name d;
  j_file' : dd_sumfile (s_dump s') = None;
  j_data : s_data s = fst (items_out (dd_dir d) (dd_base d) (dd_ext d) (dd_items (s_dump s)) data);
  j_data' : s_data s' = data;
  j_text : forall q, s_text s q = match dd_sums (s_dump s) with [] => text q | l => write (dsummary_name d) (summary_text fmt evo_cols (dd_sep d) l) text q end;
  j_text' : s_text s' = text;
}.

Lemma sumfile_name (d x : ddump A F) : dd_dir x = dd_dir d /\ dd_base x = dd_base d /\ dd_ext x = dd_ext d /\ dd_sep x = dd_sep d ->
  (forall p, dd_sumfile x = Some p -> p = dsummary_name d) -> 
  exists x', dsummary_file x = (x', dsummary_name d) /\ dd_sw x' = dd_sw x /\ dd_items x' = dd_items x /\ dd_sums x' = dd_sums x /\ dd_write x' = dd_write x /\
    dd_dir x' = dd_dir x /\ dd_base x' = dd_base x /\ dd_ext x' = dd_ext x /\ dd_sep x' = dd_sep x /\ dd_sumfile x' = Some (dsummary_name d).
Proof.
  intros (E1 & E2 & E3 & E4) H. unfold dsummary_file. destruct (dd_sumfile x) as [p|] eqn:E.
  - rewrite (H p eq_refl) in *. exists x. splits; auto.
  - assert (N : path_join (dd_dir x) (dd_base x ++ "-summary." ++ dd_ext x)%string = dsummary_name d) by (unfold dsummary_name; congruence).
    rewrite N. eexists; split; [reflexivity|]. destruct x; cbn; splits; auto.
Qed.

Lemma sum_eq ecs st idx (s : dstate) : add_evo_comp_summary fmt ecs st idx s =
  let dd := s_dump s <| dd_sums := dd_sums (s_dump s) ++ [new_sum (length (dd_sums (s_dump s))) ecs st idx] |> in
  if dd_write dd
  then let '(dd, p) := dsummary_file dd in
       mkDS dd (if (length (dd_sums (s_dump s)) =? 0)%nat then write p (head_text fmt evo_cols (dd_sep dd) (new_sum (length (dd_sums (s_dump s))) ecs st idx)) (s_text s)
                else append p (line_text fmt evo_cols (dd_sep dd) (new_sum (length (dd_sums (s_dump s))) ecs st idx)) (s_text s)) (s_data s)
  else s <| s_dump := dd |>.
Proof. unfold add_evo_comp_summary, new_sum. destruct st as [[[a b] c]|]; reflexivity. Qed.

Lemma J_sum d text data ecs st idx s s' : J d text data s s' ->
  J d text data (add_evo_comp_summary fmt ecs st idx s) (add_evo_comp_summary fmt ecs st idx s').
Proof.
  intros [j1 j2 j3 j4 j5 j6 j7 j8 j9 j10 j11 j12]. rewrite !sum_eq. rewrite j3.
  set (n := length (dd_sums (s_dump s))). set (it := new_sum n ecs st idx). cbv zeta.
  destruct s as [x tx dt], s' as [x' tx' dt']. cbn [s_dump s_text s_data] in *.
  destruct (j4 x (or_introl eq_refl)) as (f1 & f2 & f3 & f4). destruct (j4 x' (or_intror eq_refl)) as (g1 & g2 & g3 & g4).
  change (dd_write (x <| dd_sums := dd_sums x ++ [it] |>)) with (dd_write x). change (dd_write (x' <| dd_sums := dd_sums x ++ [it] |>)) with (dd_write x').
  rewrite j5, j6.
  destruct (sumfile_name d (x <| dd_sums := dd_sums x ++ [it] |>)) as (y & -> & y1 & y2 & y3 & y4 & y5 & y6 & y7 & y8 & y9); [splits; auto|exact j7|].
  cbn in y1, y2, y3, y4, y5, y6, y7, y8. constructor; cbn; try congruence.
  - intros z [->| ->]; [splits; congruence|splits; auto].
  - intros q. rewrite y3, y8, f4. assert (N : exists a l, dd_sums x ++ [it] = a :: l) by (destruct (dd_sums x) as [|a l]; cbn; eauto).
    destruct N as (a & l & N). assert (M : forall (Y : Type) (u : Y) (v : list attrs -> Y), match dd_sums x ++ [it] with [] => u | a :: l => v (a :: l) end = v (dd_sums x ++ [it])) by (intros; rewrite N; reflexivity).
    etransitivity; [|symmetry; apply (M _ (text q) (fun l => write (dsummary_name d) (summary_text fmt evo_cols (dd_sep d) l) text q))]. cbv beta. clear M N a l.
    rewrite text_snoc. replace (it "idx") with (SInt (F := F) n) by (symmetry; apply new_sum_idx). clearbody it. unfold n in *. clear n.
    destruct (dd_sums x) as [|s0 l0] eqn:El.
    + cbn [length Nat.eqb]. unfold write, put. cbn. destruct (q =? dsummary_name d)%string; auto.
    + cbn [length Nat.eqb]. unfold append, write, put in *. rewrite !j11. rewrite String.eqb_refl. destruct (q =? dsummary_name d)%string; auto.
Qed.
Lemma J_item d text data e s s' : J d text data s s' -> Forall writable (dd_items (s_dump (fst (add_evo_dump e s')))) ->
  J d text data (fst (add_evo_dump e s)) (fst (add_evo_dump e s')) /\ snd (add_evo_dump e s) = None /\ snd (add_evo_dump e s') = None.
Proof.
  intros [j1 j2 j3 j4 j5 j6 j7 j8 j9 j10 j11 j12]. unfold add_evo_dump.
  destruct s as [x tx dt], s' as [x' tx' dt']. cbn [s_dump s_text s_data] in *.
  destruct (j4 x (or_introl eq_refl)) as (f1 & f2 & f3 & f4). destruct (j4 x' (or_intror eq_refl)) as (g1 & g2 & g3 & g4).
  rewrite j1, j2. set (i := capture (dd_sw x) (length (dd_items x)) e).
  change (dd_write (x <| dd_items := dd_items x ++ [i] |>)) with (dd_write x). change (dd_write (x' <| dd_items := dd_items x ++ [i] |>)) with (dd_write x').
  rewrite j5, j6. cbn [fst snd s_dump s_data]. intros H. cbn in H. apply Forall_app in H as [H1 H2]. inversion H2 as [|? ? Hi _]; subst.
  change (dd_dir (x <| dd_items := dd_items x ++ [i] |>)) with (dd_dir x). change (dd_base (x <| dd_items := dd_items x ++ [i] |>)) with (dd_base x).
  change (dd_ext (x <| dd_items := dd_items x ++ [i] |>)) with (dd_ext x). cbn [s_data]. rewrite f1, f2, f3.
  set (base0 := fst (items_out (dd_dir d) (dd_base d) (dd_ext d) (dd_items x) data)).
  pose proof (kinds_ok (dd_dir d) (dd_base d) (dd_ext d) i base0 Hi) as K. pose proof (items_snoc (dd_dir d) (dd_base d) (dd_ext d) (dd_items x) i data H1) as S.
  fold base0 in S. change (s_data (mkDS x tx base0 <| s_dump := x <| dd_items := dd_items x ++ [i] |> |>)) with base0.
  destruct (writeout_kinds (dd_dir d) (dd_base d) (dd_ext d) i base0) as [fs' e0]. cbn in K. subst e0. cbn [fst snd]. splits; auto.
  constructor; cbn; auto; try congruence.
  - intros z [->| ->]; cbn; splits; auto.
  - rewrite S. reflexivity.
Qed.
Lemma J_step d text data c s s' : J d text data s s' -> no_clear c -> Forall writable (dd_items (s_dump (fst (dstep fmt c s')))) ->
  J d text data (fst (dstep fmt c s)) (fst (dstep fmt c s')) /\ snd (dstep fmt c s) = None /\ snd (dstep fmt c s') = None.
Proof.
  intros HJ HC. destruct c as [e ecs st|sw|]; [| |destruct HC].
  - cbn [dstep]. unfold dump_current. pose proof (j_sw _ _ _ _ _ HJ) as Esw. pose proof (j_items _ _ _ _ _ HJ) as Eit. rewrite Esw, Eit.
    destruct (d_any (dd_sw (s_dump s))).
    + pose proof (J_item d text data e s s' HJ) as P.
      assert (NE : snd (add_evo_dump e s') = None).
      { unfold add_evo_dump. pose proof (j_off _ _ _ _ _ HJ) as Off. change (dd_write (s_dump s' <| dd_items := _ |>)) with (dd_write (s_dump s')). rewrite Off. reflexivity. }
      destruct (add_evo_dump e s') as [t' e']. cbn in NE. subst e'. cbn [fst] in P. intros H.
      assert (W : Forall writable (dd_items (s_dump t'))).
      { revert H. destruct (ds_summary _); cbn; auto. rewrite sum_eq. cbv zeta. destruct (dd_write _); cbn; auto.
        unfold dsummary_file. destruct (dd_sumfile _); cbn; auto. }
      destruct (P W) as (HJ1 & N1 & _). destruct (add_evo_dump e s) as [t e0]. cbn in N1. subst e0. cbn [fst] in HJ1.
      rewrite (j_sw _ _ _ _ _ HJ1). destruct (ds_summary (dd_sw (s_dump t))); cbn; auto. splits; auto. apply J_sum; auto.
    + rewrite Esw. intros _. destruct (ds_summary (dd_sw (s_dump s))); cbn; auto. splits; auto. apply J_sum; auto.
  - intros _. cbn. splits; auto. destruct HJ as [j1 j2 j3 j4 j5 j6 j7 j8 j9 j10 j11 j12]. destruct s as [x tx dt], s' as [x' tx' dt']. cbn [s_dump s_text s_data] in *.
    constructor; cbn; auto. intros z [->| ->]; cbn; apply j4; auto.
Qed.
Lemma items_grow c (s : dstate) : no_clear c -> exists l, dd_items (s_dump (fst (dstep fmt c s))) = dd_items (s_dump s) ++ l.
Proof.
  intros HC. destruct c as [e ecs st|sw|]; [| |destruct HC].
  - cbn [dstep]. unfold dump_current.
    assert (S : forall idx (t : dstate), dd_items (s_dump (add_evo_comp_summary fmt ecs st idx t)) = dd_items (s_dump t)).
    { intros idx t. rewrite sum_eq. cbv zeta. destruct (dd_write _); cbn; auto. unfold dsummary_file. destruct (dd_sumfile _); cbn; auto. }
    destruct (d_any (dd_sw (s_dump s))).
    + assert (G : dd_items (s_dump (fst (add_evo_dump e s))) = dd_items (s_dump s) ++ [capture (dd_sw (s_dump s)) (length (dd_items (s_dump s))) e]).
      { unfold add_evo_dump. destruct (dd_write _); [destruct (writeout_kinds _ _ _ _ _)|]; reflexivity. }
      destruct (add_evo_dump e s) as [t [x|]]; cbn [fst] in G; [cbn; eauto|]. destruct (ds_summary _); cbn [fst]; rewrite ?S; eauto.
    + destruct (ds_summary _); cbn [fst]; rewrite ?S; exists []; rewrite app_nil_r; auto.
  - exists []. cbn. now rewrite app_nil_r.
Qed.
Lemma items_run cs : forall s : dstate, Forall no_clear cs -> exists l, dd_items (s_dump (drun fmt cs s)) = dd_items (s_dump s) ++ l.
Proof.
  induction cs as [|c cs IH]; intros s HC; [exists []; cbn; now rewrite app_nil_r|]. inversion HC; subst.
  change (drun fmt (c :: cs) s) with (drun fmt cs (fst (dstep fmt c s))). destruct (IH (fst (dstep fmt c s))) as [l ->]; auto.
  destruct (items_grow c s) as [l' ->]; auto. exists (l' ++ l). now rewrite app_assoc.
Qed.
Lemma J_run d text data cs : forall s s', J d text data s s' -> Forall no_clear cs -> Forall writable (dd_items (s_dump (drun fmt cs s'))) ->
  J d text data (drun fmt cs s) (drun fmt cs s').
Proof.
  induction cs as [|c cs IH]; intros s s' HJ HC HW; auto. inversion HC; subst.
  change (drun fmt (c :: cs) s) with (drun fmt cs (fst (dstep fmt c s))). change (drun fmt (c :: cs) s') with (drun fmt cs (fst (dstep fmt c s'))) in *.
  apply IH; auto. apply J_step; auto. destruct (items_run cs (fst (dstep fmt c s'))) as [l El]; auto. rewrite El in HW. apply Forall_app in HW. tauto.
Qed.
Lemma J_start d text data : dfresh d -> J d text data (mkDS (d <| dd_write := true |>) text data) (mkDS (d <| dd_write := false |>) text data).
Proof.
  intros (H1 & H2 & H3). constructor; cbn; auto; rewrite ?H1, ?H2, ?H3; cbn; auto; try discriminate. intros x [->| ->]; cbn; auto.
Qed.
End Out.

(** ** The names of the data files *)
Lemma uint_dash : forall (u v : Decimal.uint) (x y : string),
  (NilEmpty.string_of_uint u ++ "-" ++ x)%string = (NilEmpty.string_of_uint v ++ "-" ++ y)%string -> u = v /\ x = y.
Proof.
  induction u as [|u IH|u IH|u IH|u IH|u IH|u IH|u IH|u IH|u IH|u IH]; intros [|v|v|v|v|v|v|v|v|v|v] x y E; cbn in E;
    try discriminate E; injection E as E; [auto|..]; apply (IH v x y) in E; destruct E; subst; auto.
Qed.
Lemma kind_file_inj2 dir base ext i j k k' : kind_file dir base ext i k = kind_file dir base ext j k' -> i = j /\ k = k'.
Proof.
  intros E. assert (i = j).
  { unfold kind_file in E. apply (path_join_inj dir base) in E. apply (sapp_inj_l "evo") in E. apply uint_dash in E as [E _].
    apply str_nat_inj. unfold str_nat. now rewrite E. }
  subst j. split; auto. eapply kind_file_inj; eauto.
Qed.

Section Files.
Context {A : Alg}.
(** Items with distinct numbers do not disturb each other's files. *)
Lemma items_else dir base ext (l : list (item A)) : forall fs p, Forall writable l ->
  (forall i x, In i l -> In x (sections i) -> p <> kind_file dir base ext (it_idx i) (sc_file x)) ->
  fst (items_out dir base ext l fs) p = fs p.
Proof.
  induction l as [|i l IH]; intros fs p W H; cbn [items_out]; auto. inversion W as [|? ? Wi W']; subst.
  pose proof (write_sections_ok (kind_file dir base ext (it_idx i)) (kind_file_inj dir base ext (it_idx i)) (sections i) fs (sections_nodup i) Wi) as (K1 & _ & K3).
  unfold writeout_kinds. destruct (write_sections _ _ _) as [fs' e]. cbn in K1, K3. subst e. rewrite IH; auto.
  - apply K3. intros x I. apply H; auto. now left.
  - intros j x I1 I2. apply H; auto. now right.
Qed.
Lemma items_each dir base ext (l : list (item A)) : forall fs, Forall writable l -> NoDup (map it_idx l) ->
  forall i x, In i l -> In x (sections i) -> fst (items_out dir base ext l fs) (kind_file dir base ext (it_idx i) (sc_file x)) = Some (fst (sc_body x)).
Proof.
  induction l as [|j l IH]; intros fs W ND i x I X; [destruct I|]. inversion W as [|? ? Wj W']; subst. inversion ND as [|? ? N ND']; subst. cbn [items_out].
  pose proof (write_sections_ok (kind_file dir base ext (it_idx j)) (kind_file_inj dir base ext (it_idx j)) (sections j) fs (sections_nodup j) Wj) as (K1 & K2 & _).
  unfold writeout_kinds. destruct (write_sections _ _ _) as [fs' e]. cbn in K1, K2. subst e. destruct I as [->|I].
  - rewrite items_else; auto. intros i' x' I' X' E. apply kind_file_inj2 in E as [E _]. apply N. rewrite E. now apply in_map.
  - apply IH; auto.
Qed.
Lemma items_stop dir base ext (l1 : list (item A)) i l2 e : forall fs, Forall writable l1 -> NoDup (map it_idx (l1 ++ i :: l2)) ->
  (forall fs, snd (writeout_kinds dir base ext i fs) = Some e) ->
  let r := items_out dir base ext (l1 ++ i :: l2) fs in
  snd r = Some e /\ r = writeout_kinds dir base ext i (fst (items_out dir base ext l1 fs)).
Proof.
  induction l1 as [|j l1 IH]; intros fs W ND H; cbv zeta.
  - cbn [items_out app fst]. pose proof (H fs) as E. destruct (writeout_kinds dir base ext i fs) as [fs' e']. cbn in E. subst e'. auto.
  - inversion W as [|? ? Wj W']; subst. inversion ND; subst. cbn [items_out app].
    pose proof (kinds_ok dir base ext j fs Wj) as K. destruct (writeout_kinds dir base ext j fs) as [fs' e']. cbn in K. subst e'. apply IH; auto.
Qed.
Lemma sections_else name (l : list (sect (A := A))) : forall fs p, (forall x, In x l -> p <> name (sc_file x)) -> fst (write_sections name l fs) p = fs p.
Proof.
  induction l as [|s l IH]; intros fs p H; cbn [write_sections]; auto.
  assert (E : mwrite (name (sc_file s)) (fst (sc_body s)) fs p = fs p) by (apply mwrite_ne; apply H; now left).
  destruct (snd (sc_body s)); cbn [fst]; auto. rewrite IH; auto. intros x I. apply H. now right.
Qed.
Lemma kinds_fail dir base ext (i : item A) : ~ writable i -> exists e, forall fs, snd (writeout_kinds dir base ext i fs) = Some e.
Proof.
  unfold writable, writeout_kinds. generalize (kind_file dir base ext (it_idx i)). intros name. induction (sections i) as [|x l IH]; intros H; [destruct H; constructor|].
  cbn [write_sections]. destruct (snd (sc_body x)) as [e|] eqn:E; [exists e; reflexivity|].
  destruct IH as [e He]; [intros W; apply H; constructor; auto|]. exists e. intros fs. apply He.
Qed.
Lemma stream_ok (i : item A) : writable i -> snd (writeout_stream i) = None.
Proof.
  intros H. unfold writeout_stream. cbn [and_then snd]. unfold writable in H. induction H as [|x l E H IH]; auto. cbn [stream_sections and_then snd].
  destruct (sc_body x) as [t [e|]]; cbn in E |- *; [discriminate|auto].
Qed.
Lemma stream_all (l : list (item A)) : Forall writable l -> items_stream l = (concat (map (fun i => fst (writeout_stream i)) l), None).
Proof.
  induction 1 as [|i l W H IH]; auto. cbn [items_stream map concat]. rewrite IH. pose proof (stream_ok i W) as E. destruct (writeout_stream i) as [t [e|]]; [discriminate|]. reflexivity.
Qed.
End Files.

Section Text.
Context {F : Type}.
Variable fmt : sval F -> string -> string.
Lemma text_rest cols sep : forall (l : list (attrs (F := F))) j t, (forall k sm, nth_error l k = Some sm -> sm "idx" = SInt (S (j + k))) ->
  fold_left (fun t it => (t ++ (match it "idx"%string with SInt 0 => head_text fmt cols sep it | _ => line_text fmt cols sep it end))%string) l t =
  (t ++ all_lines (map (value_line fmt cols sep) l))%string.
Proof.
  induction l as [|a l IH]; intros j t H; cbn [fold_left map all_lines]; [now rewrite sapp_nil|].
  rewrite (IH (S j)); [|intros k sm E; rewrite (H (S k) sm E); f_equal; lia].
  rewrite (H 0 a eq_refl). unfold line_text. rewrite !sapp_assoc. reflexivity.
Qed.
Lemma text_table cols sep (l : list (attrs (F := F))) : (forall k sm, nth_error l k = Some sm -> sm "idx" = SInt k) -> l <> [] ->
  summary_text fmt cols sep l = table fmt cols sep l.
Proof.
  destruct l as [|a l]; [congruence|]. intros H _. unfold summary_text. cbn [fold_left].
  rewrite (text_rest cols sep l 0); [|intros k sm E; exact (H (S k) sm E)].
  rewrite (H 0 a eq_refl). unfold head_text, table. cbn [map all_lines String.append]. rewrite !sapp_assoc. reflexivity.
Qed.
End Text.
Lemma idx_nodup {A : Alg} (l : list (item A)) : (forall k i, nth_error l k = Some i -> it_idx i = k) -> NoDup (map it_idx l).
Proof.
  intros H. apply NoDup_nth_error. intros a b La E. rewrite map_length in La. rewrite !nth_error_map in E.
  destruct (nth_error l a) as [x|] eqn:Ea; [|apply nth_error_None in Ea; lia].
  destruct (nth_error l b) as [y|] eqn:Eb; [|discriminate]. cbn in E. injection E as E. rewrite (H a x Ea), (H b y Eb) in E. auto.
Qed.

Lemma no_amps_file {A : Alg} dir base ext k (i : item A) fs : it_amps i = None ->
  fst (writeout_kinds dir base ext i fs) (kind_file dir base ext k "ctrl_amps") = fs (kind_file dir base ext k "ctrl_amps").
Proof.
  intros E. unfold writeout_kinds. apply sections_else. intros x X Y. apply kind_file_inj2 in Y as [_ Y].
  destruct i as [idx a [x2|] [x3|] [x4|] [x5|] [x6|] [x7|]]; cbn in E; subst a; cbn in X;
    repeat (destruct X as [X|X]; [subst x; discriminate Y|]); exact X.
Qed.
Lemma add_item_parts {A : Alg} {F : Type} (d : dyn A) (s : dstate A F) :
  let i := capture (dd_sw (s_dump s)) (length (dd_items (s_dump s))) d in
  let t := fst (add_evo_dump d s) in
  dd_items (s_dump t) = dd_items (s_dump s) ++ [i] /\ dd_dir (s_dump t) = dd_dir (s_dump s) /\ dd_base (s_dump t) = dd_base (s_dump s) /\
  dd_ext (s_dump t) = dd_ext (s_dump s) /\
  (s_data t = s_data s \/ s_data t = fst (writeout_kinds (dd_dir (s_dump s)) (dd_base (s_dump s)) (dd_ext (s_dump s)) i (s_data s))).
Proof.
  unfold add_evo_dump. cbv zeta. destruct s as [dd tx dt]. cbn [s_dump]. destruct (dd_write _).
  - change (s_data (mkDS dd tx dt <| s_dump := _ |>)) with dt. cbn [s_data].
    change (dd_dir (dd <| dd_items := _ |>)) with (dd_dir dd). change (dd_base (dd <| dd_items := _ |>)) with (dd_base dd). change (dd_ext (dd <| dd_items := _ |>)) with (dd_ext dd).
    destruct (writeout_kinds _ _ _ _ _) as [fs e]. cbn. splits; auto.
  - cbn. splits; auto.
Qed.
