(** C89: writing a whole dynamics dump out. *)
From Coq Require Import Reals.
From Coquelicot Require Import Complex.
From RecordUpdate Require Import RecordUpdate.
From Verif.Model Require Import Base Str Dyn Dump DumpEvo DumpOut.
From Verif.Spec Require Import Scalar Dumps.
From Verif.Proofs Require Import DynRun DumpFacts DumpEvoFacts DumpOutFacts.
Local Open Scope string_scope.
Local Open Scope list_scope.
Set Bullet Behavior "Strict Subproofs".

Section C89.
Context {A : Alg} {F : Type}.
Variable fmt : sval F -> string -> string.

(** Writing at the end gives the files that writing at every evolution gives:
    for any evolutions and any changes of the switches in between, as long as
    nothing is cleared and what was stored can be written. *)
Theorem C89_later (d : ddump A F) text data cs :
  dfresh d -> Forall no_clear cs ->
  let s := drun fmt cs (mkDS (d <| dd_write := true |>) text data) in
  let s' := drun fmt cs (mkDS (d <| dd_write := false |>) text data) in
  Forall writable (dd_items (s_dump s')) ->
  let '(r, e) := dwriteout fmt s' in
  e = None /\
  (forall p, s_data s' p = data p /\ s_data r p = s_data s p) /\
  (ds_summary (dd_sw (s_dump s')) = true -> dd_sums (s_dump s') <> [] ->
   forall p, s_text s' p = text p /\ s_text r p = s_text s p) /\
  dd_items (s_dump r) = dd_items (s_dump s) /\ dd_sums (s_dump r) = dd_sums (s_dump s).
Proof.
  intros Fr NC s s' W. pose proof (J_run fmt d text data cs _ _ (J_start fmt d text data Fr) NC W) as HJ. fold s s' in HJ.
  destruct HJ as [j1 j2 j3 j4 j5 j6 j7 j8 j9 j10 j11 j12]. destruct (j4 (s_dump s') (or_intror eq_refl)) as (g1 & g2 & g3 & g4).
  unfold dwriteout. pose proof (items_ok (dd_dir d) (dd_base d) (dd_ext d) (dd_items (s_dump s')) data W) as OK.
  destruct (ds_summary (dd_sw (s_dump s'))) eqn:ES.
  - destruct (sumfile_name d (s_dump s')) as (y & -> & y1 & y2 & y3 & y4 & y5 & y6 & y7 & y8 & y9); [splits; auto|rewrite j8; discriminate|].
    rewrite y2, y5, y6, y7, y8, g1, g2, g3, g4, j10, j12. rewrite j2 in *.
    destruct (items_out (dd_dir d) (dd_base d) (dd_ext d) (dd_items (s_dump s)) data) as [fs e]. cbn in OK, j9. subst e. cbn [s_data s_text s_dump].
    splits; auto; try congruence.
    + intros p. split; auto. now rewrite j9.
    + intros _ NE p. split; auto. rewrite j11, y3, j3. rewrite j3 in NE. destruct (dd_sums (s_dump s)); [congruence|reflexivity].
  - rewrite g1, g2, g3, j10. rewrite j2 in *.
    destruct (items_out (dd_dir d) (dd_base d) (dd_ext d) (dd_items (s_dump s)) data) as [fs e]. cbn in OK, j9. subst e. cbn [s_data s_text s_dump].
    splits; auto; try congruence. intros p. split; auto. now rewrite j9.
Qed.

(** After any calls, with clearing and with or without writing on the way:
    every part of every stored evolution is in its own file, complete, and the
    summary file is the table of the stored summaries.  No other file is
    touched. *)
Theorem C89_files (d : ddump A F) text data cs :
  dfresh d ->
  let s := drun fmt cs (mkDS d text data) in
  Forall writable (dd_items (s_dump s)) ->
  let '(r, e) := dwriteout fmt s in
  e = None /\
  (forall k i x, nth_error (dd_items (s_dump s)) k = Some i -> In x (sections i) ->
     s_data r (kind_file (dd_dir d) (dd_base d) (dd_ext d) k (sc_file x)) = Some (fst (sc_body x))) /\
  (forall p, (forall k i x, nth_error (dd_items (s_dump s)) k = Some i -> In x (sections i) ->
                p <> kind_file (dd_dir d) (dd_base d) (dd_ext d) k (sc_file x)) -> s_data r p = s_data s p) /\
  (ds_summary (dd_sw (s_dump s)) = true -> dd_sums (s_dump s) <> [] ->
     s_text r (dsummary_name d) = Some (table fmt evo_cols (dd_sep d) (dd_sums (s_dump s)))) /\
  (forall p, ds_summary (dd_sw (s_dump s)) = false \/ p <> dsummary_name d -> s_text r p = s_text s p).
Proof.
  intros Fr s W. pose proof (dinv_run fmt d text data cs Fr) as [DF DI DK _ _]. fold s in DF, DI, DK.
  destruct DF as (f0 & f1 & f2 & f3 & f4 & f5). pose proof (idx_nodup _ DK) as ND. pose proof (text_table fmt evo_cols (dd_sep d) _ DI) as TT.
  assert (D : forall dir base ext, snd (items_out dir base ext (dd_items (s_dump s)) (s_data s)) = None /\
    (forall k i x, nth_error (dd_items (s_dump s)) k = Some i -> In x (sections i) ->
       fst (items_out dir base ext (dd_items (s_dump s)) (s_data s)) (kind_file dir base ext k (sc_file x)) = Some (fst (sc_body x))) /\
    (forall p, (forall k i x, nth_error (dd_items (s_dump s)) k = Some i -> In x (sections i) -> p <> kind_file dir base ext k (sc_file x)) ->
       fst (items_out dir base ext (dd_items (s_dump s)) (s_data s)) p = s_data s p)).
  { intros dir base ext. split; [apply items_ok; auto|split].
    - intros k i x E X. rewrite <- (DK k i E). apply items_each; auto. eapply nth_error_In; eauto.
    - intros p H. apply items_else; auto. intros i x I X. apply In_nth_error in I as [k E]. rewrite (DK k i E). eapply H; eauto. }
  specialize (D (dd_dir d) (dd_base d) (dd_ext d)). destruct D as (D1 & D2 & D3). unfold dwriteout.
  destruct (ds_summary (dd_sw (s_dump s))) eqn:ES.
  - destruct (sumfile_name d (s_dump s)) as (y & -> & y1 & y2 & y3 & y4 & y5 & y6 & y7 & y8 & y9).
    { splits; congruence. }
    { intros p E. destruct f5; congruence. }
    rewrite y2, y5, y6, y7, y8, f1, f2, f3, f4. destruct (items_out _ _ _ _ _) as [fs e]. cbn in D1, D2, D3 |- *. splits; auto.
    + intros _ NE. rewrite y3, TT by auto. unfold write. apply put_eq.
    + intros p [H|H]; [discriminate|]. unfold write. now apply put_ne.
  - rewrite f1, f2, f3. destruct (items_out _ _ _ _ _) as [fs e]. cbn in D1, D2, D3 |- *. splits; auto. discriminate.
Qed.

(** A stored evolution that cannot be written ends it: those before it are
    written, no file of those after it is touched. *)
Theorem C89_stops (d : ddump A F) text data cs l1 i l2 :
  dfresh d ->
  let s := drun fmt cs (mkDS d text data) in
  dd_items (s_dump s) = l1 ++ i :: l2 -> Forall writable l1 -> ~ writable i ->
  let '(r, e) := dwriteout fmt s in
  e <> None /\
  (forall k j x, nth_error l1 k = Some j -> In x (sections j) ->
     s_data r (kind_file (dd_dir d) (dd_base d) (dd_ext d) k (sc_file x)) = Some (fst (sc_body x))) /\
  (forall k kind, length l1 < k ->
     s_data r (kind_file (dd_dir d) (dd_base d) (dd_ext d) k kind) = s_data s (kind_file (dd_dir d) (dd_base d) (dd_ext d) k kind)).
Proof.
  intros Fr s E W NW. pose proof (dinv_run fmt d text data cs Fr) as [DF _ DK _ _]. fold s in DF, DK.
  destruct DF as (f0 & f1 & f2 & f3 & f4 & f5). pose proof (idx_nodup _ DK) as ND. rewrite E in ND, DK.
  assert (Di : it_idx i = length l1) by (apply DK; rewrite nth_error_app2, Nat.sub_diag; auto).
  assert (D1 : forall k j, nth_error l1 k = Some j -> it_idx j = k).
  { intros k j H. apply DK. rewrite nth_error_app1; auto. apply nth_error_Some. congruence. }
  destruct (kinds_fail (dd_dir d) (dd_base d) (dd_ext d) i NW) as [e He].
  pose proof (items_stop (dd_dir d) (dd_base d) (dd_ext d) l1 i l2 e (s_data s) W ND He) as [S1 S2].
  assert (D : let r := items_out (dd_dir d) (dd_base d) (dd_ext d) (dd_items (s_dump s)) (s_data s) in
    snd r <> None /\
    (forall k j x, nth_error l1 k = Some j -> In x (sections j) -> fst r (kind_file (dd_dir d) (dd_base d) (dd_ext d) k (sc_file x)) = Some (fst (sc_body x))) /\
    (forall k kind, length l1 < k -> fst r (kind_file (dd_dir d) (dd_base d) (dd_ext d) k kind) = s_data s (kind_file (dd_dir d) (dd_base d) (dd_ext d) k kind))).
  { rewrite E. cbv zeta. split; [rewrite S1; discriminate|]. rewrite S2. unfold writeout_kinds. split.
    - intros k j x H X. rewrite sections_else.
      + rewrite <- (D1 k j H). apply items_each; auto; [|eapply nth_error_In; eauto].
        apply idx_nodup. auto.
      + intros y _ Y. apply kind_file_inj2 in Y as [Y _]. assert (k < length l1) by (apply nth_error_Some; congruence). lia.
    - intros k kind L. rewrite sections_else.
      + apply items_else; auto. intros j x I X Y. apply kind_file_inj2 in Y as [Y _]. apply In_nth_error in I as [k' H].
        assert (k' < length l1) by (apply nth_error_Some; congruence). rewrite (D1 k' j H) in Y. lia.
      + intros y _ Y. apply kind_file_inj2 in Y as [Y _]. lia. }
  cbv zeta in D. clear S1 S2. unfold dwriteout. destruct (ds_summary (dd_sw (s_dump s))).
  - destruct (sumfile_name d (s_dump s)) as (y & -> & y1 & y2 & y3 & y4 & y5 & y6 & y7 & y8 & y9).
    { splits; congruence. }
    { intros p Ep. destruct f5; congruence. }
    rewrite y2, y5, y6, y7, f1, f2, f3. destruct (items_out _ _ _ _ _) as [fs e']. cbn in D |- *. exact D.
  - rewrite f1, f2, f3. destruct (items_out _ _ _ _ _) as [fs e']. cbn in D |- *. exact D.
Qed.

(** To one stream: first the table of the summaries, then each stored
    evolution under its number, in the order they were computed. *)
Theorem C89_stream (d : ddump A F) text data cs :
  dfresh d ->
  let dd := s_dump (drun fmt cs (mkDS d text data)) in
  Forall writable (dd_items dd) -> ds_summary (dd_sw dd) = true -> dd_sums dd <> [] ->
  exists bodies,
    length bodies = length (dd_items dd) /\
    (forall k i, nth_error (dd_items dd) k = Some i -> nth_error bodies k = Some (fst (writeout_file i))) /\
    dwriteout_stream fmt dd =
      (Txt (table fmt evo_cols (dd_sep d) (dd_sums dd)) ::
       concat (map (fun kb => Txt ("EVOLUTION COMPUTATION " ++ str_nat (fst kb) ++ nl)%string :: snd kb)
                   (combine (seq 0 (length bodies)) bodies)), None).
Proof.
  intros Fr dd W S NE. pose proof (dinv_run fmt d text data cs Fr) as [DF DI DK _ _]. fold dd in DF, DI, DK.
  destruct DF as (_ & _ & _ & _ & f4 & _).
  exists (map (fun i => fst (writeout_file i)) (dd_items dd)). rewrite map_length. splits; auto.
  - intros k i E. now rewrite nth_error_map, E.
  - unfold dwriteout_stream. rewrite S, (stream_all _ W). cbn [and_then fst snd app]. rewrite f4, (text_table fmt evo_cols (dd_sep d) _ DI NE). f_equal. f_equal.
    clear -DK. revert DK. generalize (dd_items dd). intros l DK. f_equal.
    assert (G : forall l j, (forall k i, nth_error l k = Some i -> it_idx i = j + k) ->
      map (fun i : item A => fst (writeout_stream i)) l =
      map (fun kb : nat * list (tok A) => Txt ("EVOLUTION COMPUTATION " ++ str_nat (fst kb) ++ nl)%string :: snd kb) (combine (seq j (length l)) (map (fun i => fst (writeout_file i)) l))).
    { clear. induction l as [|i l IH]; intros j H; auto. cbn [length seq map combine]. f_equal.
      - unfold writeout_stream. cbn [and_then fst snd app]. rewrite (H 0 i eq_refl), Nat.add_0_r. reflexivity.
      - apply IH. intros k x E. rewrite (H (S k) x E). lia. }
    apply (G l 0). exact DK.
Qed.

(** Not so after [clear]: the numbers start again, and a file of a kind no
    longer asked for still holds what belongs to an evolution forgotten, under
    the number of the new one. *)
Theorem C89_mixed_refuted (d : ddump A F) text data cs sw d1 ecs st x :
  dfresh d -> ds_amps sw = false ->
  let amps_file := kind_file (dd_dir d) (dd_base d) (dd_ext d) 0 "ctrl_amps" in
  s_data (drun fmt cs (mkDS d text data)) amps_file = Some x ->
  let s := drun fmt (cs ++ [ClearDump; Switches sw; Evolved d1 ecs st]) (mkDS d text data) in
  length (dd_items (s_dump s)) <= 1 /\ Forall (fun i => it_amps i = None) (dd_items (s_dump s)) /\
  s_data s amps_file = Some x /\ s_data (fst (dwriteout fmt s)) amps_file = Some x.
Proof.
  intros Fr O f H s. set (s0 := drun fmt cs (mkDS d text data)) in *.
  assert (E : s = fst (dump_current fmt d1 ecs st (dclear s0 <| s_dump := s_dump (dclear s0) <| dd_sw := sw |> |>))).
  { unfold s, drun, s0. rewrite fold_left_app. reflexivity. }
  pose proof (dinv_run fmt d text data cs Fr) as [DF _ _ _ _]. fold s0 in DF. destruct DF as (_ & f1 & f2 & f3 & _).
  set (s1 := dclear s0 <| s_dump := s_dump (dclear s0) <| dd_sw := sw |> |>) in *.
  assert (E1 : s_data s1 = s_data s0) by reflexivity. assert (E2 : dd_items (s_dump s1) = []) by reflexivity. assert (E3 : dd_sw (s_dump s1) = sw) by reflexivity.
  assert (E4 : dd_dir (s_dump s1) = dd_dir d /\ dd_base (s_dump s1) = dd_base d /\ dd_ext (s_dump s1) = dd_ext d) by (splits; auto).
  clearbody s1. clear f1 f2 f3.
  assert (K : forall (i : item A) fs, it_amps i = None -> fst (writeout_kinds (dd_dir d) (dd_base d) (dd_ext d) i fs) f = fs f) by (intros; now apply no_amps_file).
  assert (P : dd_dir (s_dump s) = dd_dir d /\ dd_base (s_dump s) = dd_base d /\ dd_ext (s_dump s) = dd_ext d /\
     length (dd_items (s_dump s)) <= 1 /\ Forall (fun i => it_amps i = None) (dd_items (s_dump s)) /\ s_data s f = Some x).
  { destruct E4 as (g1 & g2 & g3). rewrite E. unfold dump_current. rewrite E3.
    assert (S : forall idx (t : dstate A F), let t' := add_evo_comp_summary fmt ecs st idx t in
       dd_items (s_dump t') = dd_items (s_dump t) /\ dd_dir (s_dump t') = dd_dir (s_dump t) /\ dd_base (s_dump t') = dd_base (s_dump t) /\
       dd_ext (s_dump t') = dd_ext (s_dump t) /\ s_data t' = s_data t).
    { intros idx t. rewrite sum_eq. cbv zeta. destruct (dd_write _); cbn; auto. unfold dsummary_file. destruct (dd_sumfile _); cbn; auto. }
    destruct (d_any sw).
    - pose proof (add_item_parts d1 s1) as (a1 & a2 & a3 & a4 & a5). destruct (add_evo_dump d1 s1) as [t e]. cbn [fst] in *.
      assert (B : dd_dir (s_dump t) = dd_dir d /\ dd_base (s_dump t) = dd_base d /\ dd_ext (s_dump t) = dd_ext d /\
        length (dd_items (s_dump t)) <= 1 /\ Forall (fun i => it_amps i = None) (dd_items (s_dump t)) /\ s_data t f = Some x).
      { splits; try congruence.
        - rewrite a1, E2. cbn. lia.
        - rewrite a1, E2, E3. constructor; [|constructor]. cbn. now rewrite O.
        - destruct a5 as [->| ->]; [congruence|]. rewrite g1, g2, g3, K, E1; auto. rewrite E3. cbn. now rewrite O. }
      destruct e as [e|]; [exact B|]. destruct (ds_summary _); [|exact B]. cbn [fst]. destruct (S (SInt (length (dd_items (s_dump s1)))) t) as (-> & -> & -> & -> & ->). exact B.
    - assert (B : dd_dir (s_dump s1) = dd_dir d /\ dd_base (s_dump s1) = dd_base d /\ dd_ext (s_dump s1) = dd_ext d /\
        length (dd_items (s_dump s1)) <= 1 /\ Forall (fun i => it_amps i = None) (dd_items (s_dump s1)) /\ s_data s1 f = Some x).
      { splits; auto; rewrite ?E2; cbn; auto. congruence. }
      destruct (ds_summary _); [|exact B]. cbn [fst]. destruct (S SNone s1) as (-> & -> & -> & -> & ->). exact B. }
  destruct P as (p1 & p2 & p3 & p4 & p5 & p6). splits; auto.
  assert (G : forall l fs, Forall (fun i : item A => it_amps i = None) l -> fst (items_out (dd_dir d) (dd_base d) (dd_ext d) l fs) f = fs f).
  { induction l as [|i l IH]; intros fs Q; auto. inversion Q; subst. cbn [items_out]. rewrite <- (K i fs); auto.
    destruct (writeout_kinds _ _ _ _ _) as [fs' [e|]]; cbn [fst]; auto. }
  unfold dwriteout. destruct (ds_summary _).
  - assert (Y : dd_items (fst (dsummary_file (s_dump s))) = dd_items (s_dump s) /\ dd_dir (fst (dsummary_file (s_dump s))) = dd_dir d /\
       dd_base (fst (dsummary_file (s_dump s))) = dd_base d /\ dd_ext (fst (dsummary_file (s_dump s))) = dd_ext d).
    { unfold dsummary_file. destruct (dd_sumfile (s_dump s)); cbn; auto. }
    destruct (dsummary_file (s_dump s)) as [y p]. cbn in Y. destruct Y as (-> & -> & -> & ->).
    pose proof (G _ (s_data s) p5) as R. destruct (items_out _ _ _ _ _). cbn in *. congruence.
  - rewrite p1, p2, p3. pose proof (G _ (s_data s) p5) as R. destruct (items_out _ _ _ _ _). cbn in *. congruence.
Qed.
End C89.

(** A dump with amplitudes, generators and propagators switched on, and two
    evolutions that can be written; after clearing, with the amplitudes off, the
    file of the first remains; propagators alone cannot be written. *)
Definition ex_sw (amps_on : bool) : dsw := mkD (PStr "CUSTOM") true amps_on true true false false false false.
Definition ex_ddump : ddump ScalarAlg nat := mkDD (ex_sw true) true "/tmp" "txt" "dyndump" " " None [] [].
Definition ex_evo (x : R) : dyn ScalarAlg :=
  new_dyn (sc_settings GenMat 1 None Frechet FTrace) false
    <| d_amps := Some [[x]] |> <| d_dg := [Some (RtoC x : Op ScalarAlg)] |> <| d_prop := [Some (RtoC 1 : Op ScalarAlg)] |>.
Example C89_nonvacuous (fmt : sval nat -> string -> string) (ecs : attrs (F := nat)) text data :
  let cs := [Evolved (ex_evo 1) ecs None; Evolved (ex_evo 2) ecs None] in
  let s := drun fmt cs (mkDS (ex_ddump <| dd_write := false |>) text data) in
  dfresh ex_ddump /\ Forall no_clear cs /\ Forall writable (dd_items (s_dump s)) /\ length (dd_items (s_dump s)) = 2 /\
  ds_summary (dd_sw (s_dump s)) = true /\ dd_sums (s_dump s) <> [] /\
  s_data (drun fmt cs (mkDS ex_ddump text data)) "/tmp/dyndump-evo0-ctrl_amps.txt" = Some [TAmps [[1%R]]] /\
  ds_amps (ex_sw false) = false /\
  s_data (drun fmt (cs ++ [ClearDump; Switches (ex_sw false); Evolved (ex_evo 3) ecs None]) (mkDS ex_ddump text data)) "/tmp/dyndump-evo0-ctrl_amps.txt" =
    Some [TAmps [[1%R]]] /\
  ~ writable (mkItem (A := ScalarAlg) 0 None None (Some [Some (RtoC 2 : Op ScalarAlg)]) None None None None : item ScalarAlg).
Proof.
  cbv zeta. splits; try reflexivity; try discriminate.
  - repeat constructor.
  - repeat constructor.
  - cbn. repeat constructor.
  - intros W. inversion W as [|? ? E _]; subst. discriminate E.
Qed.

(** Assumptions of all theorems of this file together (listed one by one in
    ASSUMPTIONS.txt). *)
Definition propsDumpOut :=
  (@C89_later,
   @C89_files,
   @C89_stops,
   @C89_stream,
   @C89_mixed_refuted).
Print Assumptions propsDumpOut.
