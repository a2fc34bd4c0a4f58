(** Vocabulary for histories of calls on one Dynamics object: which calls are
    legitimate, which amplitudes are the latest, how many updates changed
    something. *)
From Coq Require Import Reals.
From Coquelicot Require Import Complex.
From RecordUpdate Require Import RecordUpdate.
From Verif.Model Require Import Base Dyn.
From Verif.Spec Require Import Evolution.
Local Open Scope nat_scope.

Section Spec.
Context {A : Alg}.

(** With the amplitudes [a], slot [k] has duration [t] and generator [g], and
    its control [j] is [cj]. *)
Definition slot_at (s : settings A) (n m : nat) (a : amps) (k j : nat) (t : R) (g cj : Op A) : Prop :=
  shape n m a /\ nth_error (s_tau s) k = Some t /\ nth_error (gens_of s a) k = Some g /\
  exists c cs, eff_ctrls s = Some c /\ nth_error (ctrl_ops n c) k = Some cs /\ nth_error cs j = Some cj.

(** The external numerical routine used by the configured propagator computer
    delivers the exponential (see [Spec/Evolution.v]) at the arguments that
    can occur; nothing is assumed of the plain exponential, and nothing of
    routines that are not used. *)
Definition routines_ok (s : settings A) (n m : nat) : Prop :=
  (s_prop s = Frechet -> forall a k j t g cj, slot_at s n m a k j t g cj -> frechet_expm s t g cj) /\
  (s_prop s = AugMat -> forall a k j t g cj, slot_at s n m a k j t g cj -> aug_expm s t g cj) /\
  (s_prop s = Diag -> forall a k t g, shape n m a -> nth_error (s_tau s) k = Some t ->
     nth_error (gens_of s a) k = Some g -> diag_expm s t g).

(** The routine used by the configured propagator computer also delivers the
    derivative [dexp] of the exponential, at the amplitudes [a]. *)
Definition grad_routines_at (dexp : Op A -> Op A -> Op A) (s : settings A) (n m : nat) (a : amps) : Prop :=
  forall k j t g cj, slot_at s n m a k j t g cj ->
  (s_prop s = Frechet -> frechet_dexp dexp s t g cj) /\
  (s_prop s = AugMat -> aug_dexp dexp s t g cj) /\
  (s_prop s = Diag -> diag_dexp dexp s t g cj).
(** At all amplitudes. *)
Definition grad_routines_ok (dexp : Op A -> Op A -> Op A) (s : settings A) (n m : nat) : Prop :=
  forall a, grad_routines_at dexp s n m a.

(** Calls a user can make: amplitude arrays have the right shape;
    get_fidelity exists only on the unitary fidelity computer; gradients need
    an exact propagator computer. *)
Definition call_ok (s : settings A) (n m : nat) (o : op) : Prop :=
  match o with
  | UpdateAmps a => shape n m a
  | GetFidelity => s_fid s = FUnit
  | GetGradient => s_prop s <> Approx
  | _ => True
  end.

(** The amplitudes of the last update. *)
Fixpoint latest (a : amps) (ops : list op) : amps :=
  match ops with
  | [] => a
  | UpdateAmps b :: ops' => latest b ops'
  | _ :: ops' => latest a ops'
  end.

(** Number of updates in [ops] whose array differs from the previous one. *)
Fixpoint changes (a : amps) (ops : list op) : nat :=
  match ops with
  | [] => 0
  | UpdateAmps b :: ops' =>
    (if list_eq_dec (list_eq_dec Req_EM_T) a b then 0 else 1) + changes b ops'
  | _ :: ops' => changes a ops'
  end.

(** A new object is given the settings, initialised, and used. *)
Definition session (s : settings A) (with_stats : bool) (a : amps) (ops : list op) : Res (dyn A) :=
  d <- initialize_controls a (new_dyn s with_stats);; run ops d.

(** Number of entries / rows in which two arrays of equal shape differ. *)
Definition differs {X} (dec : forall x y : X, {x = y} + {x <> y}) (p : X * X) : bool :=
  if dec (fst p) (snd p) then false else true.
Definition diff_entries (a b : amps) : nat :=
  length (filter (differs Req_EM_T) (combine (concat a) (concat b))).
Definition diff_rows (a b : amps) : nat :=
  length (filter (differs (list_eq_dec Req_EM_T)) (combine a b)).

End Spec.

(** ** Using one object for two problems in turn *)
Section Again.
Context {A : Alg}.

(** Is the phased generator cached?  (Never when there is no phase.) *)
Definition phase_cached (s : settings A) : bool :=
  match s_phase s with None => false | Some _ => s_cache_ph s end.
Definition time_dep_ctrls (s : settings A) : bool :=
  match eff_ctrls s with Some (CArr _) => true | _ => false end.

(** What an object that has solved [s1] may go on to without re-creating it. *)
Record may_follow (s1 : settings A) (n1 m1 : nat) (s2 : settings A) (n2 m2 : nat) : Prop := {
  mf_ctrls : m2 = m1;
  mf_kind : time_dep_ctrls s2 = time_dep_ctrls s1;
  mf_phase : phase_cached s2 = true \/
             (phase_cached s1 = false /\ (s_phase s2 = None \/ s_phase s1 <> None));
  mf_slots : n2 <= n1;
  mf_adj : s_prop s2 = Diag -> s_cache_adj s2 = false -> s_prop s1 = Diag;
}.

(** The user assigns the settings [s] and calls initialize_controls again. *)
Definition again (s : settings A) (a : amps) (ops : list op) (d : dyn A) : Res (dyn A) :=
  d <- initialize_controls a (d <| d_set := s |>);; run ops d.
End Again.
