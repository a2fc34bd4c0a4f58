(** What the physics says, as functions of the problem and the amplitudes
    alone.  Nothing here mentions caches, flags, buffers or histories. *)
From Coq Require Import Reals.
From Coquelicot Require Import Complex.
From Verif.Model Require Import Base Dyn.
Local Open Scope R_scope.

Section Spec.
Context {A : Alg}.
Notation Op := (Op A).

(** The drift and the control operators of each of the [n] timeslots. *)
Definition drift_ops (n : nat) (dr : drift A) : list Op :=
  match dr with DConst o => repeat o n | DList l => firstn n l end.
Definition ctrl_ops (n : nat) (c : ctrls A) : list (list Op) :=
  match c with CList l => repeat l n | CArr rows => firstn n rows end.

(** drift + u_1 * c_1 + ... + u_m * c_m. *)
Fixpoint lincomb (d : Op) (row : list R) (cs : list Op) : Op :=
  match row, cs with
  | u :: row', c :: cs' => lincomb (oadd A d (oscale A (RtoC u) c)) row' cs'
  | _, _ => d
  end.

Fixpoint map3 {X Y Z W} (f : X -> Y -> Z -> W) (l1 : list X) (l2 : list Y) (l3 : list Z) : list W :=
  match l1, l2, l3 with
  | x :: l1', y :: l2', z :: l3' => f x y z :: map3 f l1' l2' l3'
  | _, _, _ => []
  end.
Fixpoint map2 {X Y W} (f : X -> Y -> W) (l1 : list X) (l2 : list Y) : list W :=
  match l1, l2 with
  | x :: l1', y :: l2' => f x y :: map2 f l1' l2'
  | _, _ => []
  end.

(** Combined generators, one per timeslot. *)
Definition generators (n : nat) (dr : drift A) (c : ctrls A) (a : amps) : list Op :=
  map3 lincomb (drift_ops n dr) a (ctrl_ops n c).

(** The generator that is exponentiated: with the phase, when there is one,
    applied from the configured side. *)
Definition with_phase (s : settings A) (g : Op) : Op :=
  match s_phase s with
  | None => g
  | Some ph =>
    match s_phapp s, ph with
    | CustomApp f, _ => f g
    | _, PhNum c => oscale A c g
    | PreOp, PhOp p => omul A p g
    | PostOp, PhOp p => omul A g p
    end
  end.

(** Propagator of a slot with generator [g] and duration [t]. *)
Definition propagator (s : settings A) (t : R) (g : Op) : Op :=
  oexpm A (oscale A (RtoC t) (with_phase s g)).

Definition propagators (s : settings A) (gs : list Op) : list Op :=
  map2 (propagator s) (s_tau s) gs.

(** U_k ... U_2 U_1 x for ps = [U_1; ...; U_k]. *)
Definition evolve (ps : list Op) (x : Op) : Op := fold_left (fun x p => omul A p x) ps x.

(** x U_k ... U_1 for ps = [U_1; ...; U_k]. *)
Definition devolve (x : Op) (ps : list Op) : Op := fold_right (fun p x => omul A x p) x ps.

(** U_k ... U_2 U_1 for a non-empty list. *)
Fixpoint product (ps : list Op) : option Op :=
  match ps with
  | [] => None
  | [p] => Some p
  | p :: ps' => match product ps' with Some q => Some (omul A q p) | None => None end
  end.

(** The problem a Unitary object solves when only Hamiltonians are given
    (dynamics.py:1570-1579 documents drift_ham/ctrl_ham as aliases). *)
Definition eff_drift (s : settings A) : option (drift A) :=
  match s_class s, s_drift s with
  | Unitary, None => s_drift_ham s
  | _, d => d
  end.
Definition eff_ctrls (s : settings A) : option (ctrls A) :=
  match s_class s, s_ctrls s with
  | Unitary, None => s_ctrl_ham s
  | _, c => c
  end.

Definition gens_of (s : settings A) (a : amps) : list Op :=
  match eff_drift s, eff_ctrls s with
  | Some dr, Some c => generators (length (s_tau s)) dr c a
  | _, _ => []
  end.
Definition props_of (s : settings A) (a : amps) : list Op := propagators s (gens_of s a).
Definition final_of (s : settings A) (a : amps) : Op := evolve (props_of s a) (s_initial s).

(** The operator that undoes the target: its adjoint for unitary dynamics and
    for states, its inverse for other square targets. *)
Definition undo_target (s : settings A) : Op :=
  match s_class s, osquare A (s_target s) with
  | GenMat, true => oinv A (s_target s)
  | _, _ => odag A (s_target s)
  end.

(** Overlap with the target and the two figures of merit. *)
Definition overlap (s : settings A) (a : amps) : C :=
  otr A (omul A (undo_target s) (final_of s a)).
Definition target_norm (s : settings A) : C := otr A (omul A (odag A (s_target s)) (s_target s)).
Definition fidelity_of (s : settings A) (a : amps) : R :=
  match s_phopt s with
  | SU => Re (overlap s a) / Re (target_norm s)
  | PSU => Cmod (overlap s a) / Cmod (target_norm s)
  end.
Definition trace_scale (s : settings A) : R :=
  match s_scale s with Some x => x | None => 1 / (2 * INR (s_dim s)) end.
Definition trace_dist (s : settings A) (a : amps) : R :=
  let diff := osub A (s_target s) (final_of s a) in
  trace_scale s * Re (otr A (omul A (odag A diff) diff)).
Definition fid_err_of (s : settings A) (a : amps) : R :=
  match s_fid s with
  | FUnit => Rabs (1 - fidelity_of s a)
  | FTrace => trace_dist s a
  end.

(** First order change of the propagator of a slot of duration [t] and
    generator [g] in the direction of a control [c]: an operation [dP t g c]
    (see [dprop] below for its meaning). *)
Section Gradient.
Variable dP : R -> Op -> Op -> Op.

(** First order change of the overlap / of the final operator when the
    amplitude of control [j] in slot [k] changes; [None] outside the pulse. *)
Definition dslot (s : settings A) (a : amps) (k j : nat) : option Op :=
  match eff_ctrls s with
  | None => None
  | Some c =>
    match nth_error (s_tau s) k, nth_error (gens_of s a) k,
          nth_error (ctrl_ops (length (s_tau s)) c) k with
    | Some t, Some g, Some cs =>
      match nth_error cs j with Some cj => Some (dP t g cj) | None => None end
    | _, _, _ => None
    end
  end.

Definition doverlap (s : settings A) (a : amps) (k j : nat) : option C :=
  match dslot s a k j with
  | None => None
  | Some dp =>
    let ps := props_of s a in
    let before := evolve (firstn k ps) (s_initial s) in
    let after := devolve (undo_target s) (skipn (S k) ps) in
    Some (otr A (omul A (omul A after dp) before))
  end.

Definition dfinal (s : settings A) (a : amps) (k j : nat) : option Op :=
  match dslot s a k j with
  | None => None
  | Some dp =>
    let ps := props_of s a in
    let before := omul A dp (evolve (firstn k ps) (s_initial s)) in
    match product (skipn (S k) ps) with
    | None => Some before
    | Some after => Some (omul A after before)
    end
  end.

(** e^{-i arg z}: multiplies z to |z|; 1 for z = 0. *)
Definition conj_phase (z : C) : C :=
  if Req_EM_T (Cmod z) 0 then RtoC 1 else (Cconj z / RtoC (Cmod z))%C.

(** Gradient entry reported to the optimiser. *)
Definition grad_entry_of (s : settings A) (a : amps) (k j : nat) : option R :=
  match s_fid s with
  | FUnit =>
    match doverlap s a k j with
    | None => None
    | Some g =>
      let sgn := if Rle_dec 1 (fidelity_of s a) then 1 else -1 in
      Some (sgn * match s_phopt s with
                  | SU => Re g / Re (target_norm s)
                  | PSU => Re (g * conj_phase (overlap s a))%C / Cmod (target_norm s)
                  end)
    end
  | FTrace =>
    match dfinal s a k j with
    | None => None
    | Some g =>
      let diff := osub A (s_target s) (final_of s a) in
      Some (-2 * trace_scale s * Re (otr A (omul A (odag A diff) g)))
    end
  end.

(** [g] is the n x m array with these entries. *)
Definition grad_is (s : settings A) (a : amps) (g : amps) : Prop :=
  length g = length a /\
  forall k j, (match nth_error g k with Some row => nth_error row j | None => None end)
              = grad_entry_of s a k j.

End Gradient.

(** ** What the external routines are assumed to compute *)
Section Oracles.
(** [dexp x e]: derivative of the exponential at [x] in direction [e]. *)
Variable dexp : Op -> Op -> Op.

Definition dprop (s : settings A) (t : R) (g c : Op) : Op :=
  dexp (oscale A (RtoC t) (with_phase s g)) (oscale A (RtoC t) (with_phase s c)).

(** For a slot of duration [t] with generator [g] and a control [c]: scipy
    expm_frechet returns the exponential; so does the leading block of the
    exponential of the augmented matrix. *)
Definition phased (s : settings A) (t : R) (g : Op) : Op := oscale A (RtoC t) (with_phase s g).
Definition frechet_expm (s : settings A) (t : R) (g c : Op) : Prop :=
  fst (ofrechet A (phased s t g) (phased s t c)) = propagator s t g.
Definition frechet_dexp (s : settings A) (t : R) (g c : Op) : Prop :=
  snd (ofrechet A (phased s t g) (phased s t c)) = dprop s t g c.
Definition aug_expm (s : settings A) (t : R) (g c : Op) : Prop :=
  oblk00 A (oexpm A (oaug A (phased s t g) (phased s t c))) = propagator s t g.
Definition aug_dexp (s : settings A) (t : R) (g c : Op) : Prop :=
  oblk01 A (oexpm A (oaug A (phased s t g) (phased s t c))) = dprop s t g c.
(** e^{-i lam_j t}, and the divided differences of e^{-i . t}, with the
    derivative in place of the quotient when the two phases are closer than
    [prec]. *)
Definition eigphase (lam : nat -> R) (t : R) (j : nat) : C :=
  (cos (lam j * t), - sin (lam j * t)).
Definition divdiff (prec : R) (lam : nat -> R) (t : R) (i j : nat) : C :=
  if Rlt_dec (Rabs (lam j * t - lam i * t)) prec then eigphase lam t j
  else Cdiv (eigphase lam t j - eigphase lam t i)%C (0, - (lam j * t - lam i * t)).
(** Reconstruction from eigenvalues/vectors, for generator [g], duration [t]. *)
Definition diag_expm (s : settings A) (t : R) (g : Op) : Prop :=
  let '(lam, V) := oeigh A g in
  omul A (omul A V (odiag A (eigphase lam t))) (odag A V) = propagator s t g.
Definition diag_dexp (s : settings A) (t : R) (g c : Op) : Prop :=
  let '(lam, V) := oeigh A g in
  omul A (omul A V (ohad A (oscale A (RtoC t)
            (omul A (omul A (odag A V) (with_phase s c)) V)) (divdiff (s_prec s) lam t)))
         (odag A V) = dprop s t g c.

End Oracles.

(** ** Problems the object can solve *)

(** Shapes agree: [n] slots, [m] controls. *)
Definition shape (n m : nat) (a : amps) : Prop :=
  length a = n /\ Forall (fun row => length row = m) a.

Definition drift_fits (n : nat) (dr : drift A) : Prop :=
  match dr with DConst _ => True | DList l => length l = n end.
Definition ctrls_fit (n m : nat) (c : ctrls A) : Prop :=
  match c with
  | CList l => length l = m
  | CArr rows => length rows = n /\ Forall (fun r => length r = m) rows
  end.

Record well_posed (s : settings A) (n m : nat) : Prop := {
  wp_tau : length (s_tau s) = n;
  wp_pos : (0 < n)%nat;
  wp_drift : exists dr, eff_drift s = Some dr /\ drift_fits n dr;
  wp_ctrls : exists c, eff_ctrls s = Some c /\ ctrls_fit n m c;
  (* at least one control, unless propagator gradients are not cached *)
  wp_m : s_cache_pg s = true -> (0 < m)%nat;
  (* the diagonalising propagator computer needs DynamicsUnitary *)
  wp_diag : s_prop s = Diag -> s_class s = Unitary;
}.

End Spec.
