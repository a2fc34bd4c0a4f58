(** Lemmas about Model/Construct.v. *)
From Verif.Model Require Import Construct.
From Verif.Spec Require Import OptionRules Constructed.
From Verif.Proofs Require Import OptionFacts.
Local Open Scope string_scope.
Local Open Scope list_scope.
Set Bullet Behavior "Strict Subproofs".

Section Facts.
Variable ev : nat -> val.
Variable check : string -> bool.
Variable setter : string -> option (val -> dict -> Res dict).
Notation plain := (plain setter).
Notation exec := (exec ev check setter).
Notation exec_all := (exec_all ev check setter).

Lemma setattr_get k k' v o o' : plain k -> setattr setter k' v o = Ok o' ->
  dget o' k = if (k' =? k)%string then Some v else dget o k.
Proof.
  intros [P1 P2] E. unfold setattr in E. destruct (setter k') as [f|] eqn:S.
  - rewrite (P2 _ _ _ _ _ S E). destruct (String.eqb_spec k' k); auto. congruence.
  - injection E as <-. apply dget_set.
Qed.
Lemma set_all_get k p : plain k -> distinct p -> forall o o', set_all setter p o = Ok o' -> dget o' k = or_else (dget p k) (dget o k).
Proof.
  intros P. unfold distinct. induction p as [|[q u] p IH]; intros D o o' E; cbn [set_all] in E.
  - injection E as <-. reflexivity.
  - cbn [map fst] in D. inversion D; subst. destruct (setattr setter q u o) as [o1|] eqn:E1; [|discriminate]. cbn [bind] in E.
    rewrite (IH H2 _ _ E), (setattr_get k q u o o1 P E1). cbn [dget].
    destruct (String.eqb_spec q k); auto. subst. now rewrite (dget_notin p k).
Qed.

(** The names a statement may change besides those in the parameters. *)
Definition name_of (s : stmt) : list string := match s with Set_ k | Incr k => [k] | _ => [] end.
Definition is_apply (s : stmt) : bool := match s with Apply => true | _ => false end.
Fixpoint after (l : list stmt) : option (list string) :=
  match l with
  | [] => None
  | s :: l' => match after l' with Some x => Some x | None => if is_apply s then Some (flat_map name_of l') else None end
  end.

Lemma exec_get k n s o o' : plain k -> exec n s o = Ok o' -> ~ In k (name_of s) ->
  is_apply s = false -> dget o' k = dget o k.
Proof.
  intros P E N A. destruct s; cbn in *; try discriminate.
  - rewrite (setattr_get k _ _ _ _ P E). destruct (String.eqb_spec k0 k); [exfalso; auto|auto].
  - destruct (check what); [injection E as <-; auto|discriminate].
  - unfold getattr in E. destruct (dget o k0) as [v|]; [|discriminate]. cbn in E. destruct v; try discriminate.
    rewrite (setattr_get k _ _ _ _ P E). destruct (String.eqb_spec k0 k); [exfalso; auto|auto].
Qed.
Lemma apply_get k n o o' p : plain k -> plain "params" -> k <> "params" -> distinct p -> dget p "params" = None ->
  dget o "params" = Some (VDict p) -> exec n Apply o = Ok o' ->
  dget o' k = or_else (dget p k) (dget o k) /\ dget o' "params" = Some (VDict p).
Proof.
  intros P Pp Nk D Np Hp E. cbn in E. unfold apply_params in E. cbn [truthy bind] in E. unfold getattr in E. rewrite Hp in E. cbn [bind] in E.
  destruct (setattr setter "params" (VDict p) o) as [o1|] eqn:E1; [|discriminate]. cbn [bind] in E.
  split.
  - rewrite (set_all_get k p P D _ _ E), (setattr_get k _ _ _ _ P E1). destruct (String.eqb_spec "params" k); [congruence|auto].
  - rewrite (set_all_get "params" p Pp D _ _ E), (setattr_get "params" _ _ _ _ Pp E1), Np. reflexivity.
Qed.
Lemma tail_get k : plain k -> forall l o o', exec_all l o = Ok o' -> after l = None -> ~ In k (flat_map name_of l) -> dget o' k = dget o k.
Proof.
  intros P. induction l as [|s l IH]; intros o o' E A N; cbn [Construct.exec_all] in E.
  - now injection E as <-.
  - destruct (exec (List.length l) s o) as [o1|] eqn:E1; [|discriminate]. cbn [bind] in E. cbn [after] in A.
    destruct (after l) eqn:Al; [discriminate|]. destruct (is_apply s) eqn:As; [discriminate|].
    cbn [flat_map] in N. rewrite in_app_iff in N. rewrite (IH _ _ E eq_refl) by tauto.
    eapply exec_get; eauto.
Qed.
Lemma exec_params n s o o' p : plain "params" -> distinct p -> dget p "params" = None -> ~ In "params" (name_of s) ->
  dget o "params" = Some (VDict p) -> exec n s o = Ok o' -> dget o' "params" = Some (VDict p).
Proof.
  intros Pp D Np N Hp E. destruct (is_apply s) eqn:A.
  - destruct s; try discriminate. cbn in E. unfold apply_params in E. cbn [truthy bind] in E. unfold getattr in E. rewrite Hp in E. cbn [bind] in E.
    destruct (setattr setter "params" (VDict p) o) as [o1|] eqn:E1; [|discriminate]. cbn [bind] in E.
    rewrite (set_all_get "params" p Pp D _ _ E), (setattr_get "params" _ _ _ _ Pp E1), Np. reflexivity.
  - rewrite (exec_get "params" n s o o' Pp E N A). exact Hp.
Qed.

Lemma run_get k p v : plain k -> plain "params" -> distinct p -> dget p "params" = None -> dget p k = Some v ->
  forall l ns o o', after l = Some ns -> ~ In k ns -> ~ In "params" (flat_map name_of l) ->
    dget o "params" = Some (VDict p) -> exec_all l o = Ok o' -> dget o' k = Some v.
Proof.
  intros P Pp D Np Hv. induction l as [|s l IH]; intros ns o o' A N Q Hp E; [discriminate|].
  cbn [Construct.exec_all] in E. destruct (exec (List.length l) s o) as [o1|] eqn:E1; [|discriminate]. cbn [bind] in E.
  cbn [flat_map] in Q. rewrite in_app_iff in Q. cbn [after] in A.
  destruct (after l) as [x|] eqn:Al.
  - eapply (IH ns o1); eauto. eapply exec_params; eauto.
  - destruct (is_apply s) eqn:As; [|discriminate]. destruct s; try discriminate. injection A as <-.
    assert (Nk : k <> "params") by (intros ->; congruence).
    destruct (apply_get k _ _ _ p P Pp Nk D Np Hp E1) as [G _].
    rewrite (tail_get k P l o1 o' E Al N), G, Hv. reflexivity.
Qed.

(** Attributes assigned by the last statements do not depend on the
    parameters. *)
Definition clean (k : string) (l : list stmt) : bool :=
  forallb (fun s => negb (is_apply s) && negb (existsb (String.eqb k) (name_of s))) l.
Fixpoint final (k : string) (l : list stmt) : option nat :=
  match l with
  | [] => None
  | s :: l' => match final k l' with
               | Some n => Some n
               | None => match s with Set_ q => if (q =? k)%string && clean k l' then Some (List.length l') else None | _ => None end
               end
  end.
Lemma clean_ok k l : clean k l = true -> after l = None /\ ~ In k (flat_map name_of l).
Proof.
  induction l as [|s l IH]; cbn; [auto|]. intros H. apply andb_prop in H as [H1 H2]. apply andb_prop in H1 as [H0 H1].
  destruct (IH H2) as [A N]. rewrite A. destruct (is_apply s); [discriminate|]. split; auto.
  rewrite in_app_iff. intros [K|K]; [|auto]. destruct s; cbn in *; try contradiction; destruct K as [->|[]]; rewrite String.eqb_refl in H1; discriminate.
Qed.
Lemma final_ok k : plain k -> forall l n o o', final k l = Some n -> exec_all l o = Ok o' -> dget o' k = Some (ev n).
Proof.
  intros P. induction l as [|s l IH]; intros n o o' F E; [discriminate|]. cbn [final] in F. cbn [Construct.exec_all] in E.
  destruct (exec (List.length l) s o) as [o1|] eqn:E1; [|discriminate]. cbn [bind] in E.
  destruct (final k l) as [m|] eqn:Fl; [eapply IH; eauto; congruence|].
  destruct s; try discriminate. destruct (String.eqb_spec k0 k); [|discriminate]. subst. cbn [andb] in F.
  destruct (clean k l) eqn:C; [|discriminate]. injection F as <-. destruct (clean_ok k l C) as [A N]. cbn in E1.
  rewrite (tail_get k P l o1 o' E A N), (setattr_get k _ _ _ _ P E1), String.eqb_refl. reflexivity.
Qed.
End Facts.
