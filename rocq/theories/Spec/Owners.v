(** Who may write what: a minimiser writes only into vectors it made itself or
    was given as a gradient. *)
From Coq Require Import Reals.
From Verif.Model Require Import Base Dyn Alias.
Local Open Scope nat_scope.

Section Spec.
Variable fid_of : list R -> R.
Variable grad_of : list R -> list R.
Variable crab : option ((list R -> list R) * list nat).

(** [own]: the buffers that belong to the minimiser. *)
Fixpoint writes_own (l : list event) (s : world * list nat) : Prop :=
  match l with
  | [] => True
  | e :: l' =>
    match e with Write b _ _ => In b (snd s) | _ => True end /\
    writes_own l' (step fid_of grad_of crab e s)
  end.

(** The amplitudes a vector of variables stands for. *)
Definition amps_for (v : list R) : list R := match crab with None => v | Some (expand, _) => expand v end.
(** A run in which the minimiser writes only what it owns (nothing at first)
    and returns some existing vector, if any. *)
Definition fair_run (r : run) (w : world) : Prop :=
  forall x0 i w1, start fid_of crab (r_coeffs r) w = Ok (x0, i, w1) ->
    writes_own (r_events r) (w1, []) /\
    forall v, r_ret r = Some v -> a_buf v < length (heap (fst (steps fid_of grad_of crab (r_events r) (w1, [])))).
Fixpoint fair_runs (rs : list run) (w : world) : Prop :=
  match rs with
  | [] => True
  | r :: rs' => fair_run r w /\
                forall x w', run_optimization fid_of grad_of crab r w = Ok (x, w') -> fair_runs rs' w'
  end.
(** No evaluation in a list of events. *)
Definition no_call (l : list event) : Prop := Forall (fun e => match e with Eval _ | Grad _ => False | _ => True end) l.

(** A Dynamics whose controls were initialised with some array and that has
    been through any number of fair runs. *)
Definition reachable (w : world) : Prop :=
  exists h a w0 rs xs, a_buf a < length h /\ initialize_controls a (mkW h None None None) = Ok w0 /\
    fair_runs rs w0 /\ run_all fid_of grad_of crab rs w0 = Ok (xs, w).

(** A user working with Dynamics directly: making arrays, writing into them,
    giving them to update_ctrl_amps, asking for the error and its gradient. *)
Inductive call := UNew (v : list R) (shape : list nat) | UWrite (b i : nat) (x : R) | UUpdate (a : arr) | UErr | UGrad.
Definition use1 (c : call) (w : world) : world :=
  match c with
  | UNew v shape => snd (alloc v shape w)
  | UWrite b i x => write b i x w
  | UUpdate a => match update a w with Ok w' => w' | Raise _ => w end
  | UErr => match get_fid_err fid_of w with Ok (_, w') => w' | Raise _ => w end
  | UGrad => match get_gradient grad_of w with Ok (_, w') => w' | Raise _ => w end
  end.
Definition use (l : list call) (w : world) : world := fold_left (fun w c => use1 c w) l w.
(** Only existing arrays are passed, and the user never writes into the array
    that was given last or into the gradient that was returned. *)
Fixpoint hands_off (l : list call) (w : world) : Prop :=
  match l with
  | [] => True
  | c :: l' =>
    match c with
    | UWrite b _ _ => (forall a, stored w = Some a -> a_buf a <> b) /\ (forall g, grad_cache w = Some g -> a_buf g <> b)
    | UUpdate a => a_buf a < length (heap w)
    | _ => True
    end /\ hands_off l' (use1 c w)
  end.
End Spec.
