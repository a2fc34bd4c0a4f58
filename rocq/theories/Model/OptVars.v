(** Model of how src/qutip_qtrl/optimizer.py turns the amplitude array into
    the minimiser's vector of variables and back, and of the bounds list. *)
From Coq Require Import Reals.
From Verif.Model Require Export Base Dyn.

(** optimizer.py:613-620 [_get_optim_var_vals]: ctrl_amps.reshape([-1]), numpy's
    default row-major order. *)
Definition flatten (a : amps) : list R := concat a.

(** The rows of an [n, m] array read in row-major order from a vector. *)
Fixpoint rows (n m : nat) (x : list R) : amps :=
  match n with
  | 0 => []
  | S n' => firstn m x :: rows n' m (skipn m x)
  end.

(** optimizer.py:622-636 [_get_ctrl_amps]: reshape to the shape of the stored
    amplitudes; numpy raises ValueError when the sizes differ. *)
Definition reshape (n m : nat) (x : list R) : Res amps :=
  if length x =? n * m then Ok (rows n m x) else Raise ValueError.

(** A float that may be infinite (NaN is not modelled). *)
Inductive xreal := Fin (x : R) | PInf | NInf.

(** amp_lbound / amp_ubound: None, a number, or a list with one entry per
    control (optimizer.py:505-512). *)
Inductive bspec := BNone | BNum (x : xreal) | BList (l : list (option xreal)).

(** 505-508 / 509-512. *)
Definition bound_of (b : bspec) (c : nat) : Res (option xreal) :=
  match b with
  | BNone => Ok None
  | BNum x => Ok (Some x)
  | BList l => get l c
  end.

(** 514-517: [if lb is not None and np.isinf(lb): lb = None]. *)
Definition drop_inf (b : option xreal) : option R :=
  match b with Some (Fin x) => Some x | _ => None end.

Definition bpair := (option R * option R)%type.

(** optimizer.py:498-519 [_build_bounds_list]. *)
Definition build_bounds (n m : nat) (lb ub : bspec) : Res (list bpair) :=
  ll <- map_res (fun t : nat =>
          map_res (fun c => l <- bound_of lb c;; u <- bound_of ub c;; Ok (drop_inf l, drop_inf u))
                  (range m))
        (range n);;
  Ok (concat ll).
