(** Model of the CRAB side of src/qutip_qtrl/optimizer.py: how OptimizerCrab
    reads its variables from the pulse generators and turns a vector of them
    into amplitudes.  The generators themselves are in [Model/PulseGen.v]. *)
From Coq Require Import Reals.
From RecordUpdate Require Import RecordUpdate.
From Verif.Model Require Export Str Base Float PulseGen Dyn OptVars.

(** The attribute [pulse_generator]: None, one generator (not iterable), or a
    list of them. *)
Inductive pulse_gens := PgNone | PgOne (g : pgen) | PgList (l : list pgen).

(** [get_optim_var_vals]; a standard generator has no such method. *)
Definition get_vars_of (g : pgen) : Res (list R) :=
  match p_cls g with CCrab => get_optim_var_vals g | _ => Raise AttributeError end.

(** pulsegen.py:1124-1132 [set_optim_var_vals]. *)
Definition set_vars_of (v : list R) (g : pgen) : Res pgen :=
  match p_cls g with CCrab => set_coeffs v g | _ => Raise AttributeError end.

Definition is_crab_gen (g : pgen) : bool := match p_cls g with CCrab => true | _ => false end.

Section Crab.
Context {A : Alg}.
(** Random numbers for a generator that initialises itself (see
    [Model/PulseGen.v]). *)
Variable rnd : nat -> R.

(** optimizer.py:1078-1110: the check of the generators in [init_optim].
    A missing num_ctrls is an exception in the code; the run is stopped either
    way. *)
Definition crab_gens_ok (d : dyn A) (G : pulse_gens) : bool :=
  match G, get_num_ctrls d with
  | PgList l, Ok (_, m) => (length l =? m) && forallb is_crab_gen l
  | _, _ => false
  end.

(** optimizer.py:1078, 1104: num_optim_vars. *)
Definition count_vars (l : list pgen) : nat := list_sum (map p_nvars l).

(** optimizer.py:1124-1138 [_get_optim_var_vals]. *)
Definition crab_get_vars (d : dyn A) (G : pulse_gens) : Res (list R) :=
  match G with
  | PgList l => vs <- map_res get_vars_of l;; Ok (concat vs)
  | _ => Raise TypeError
  end.

(** The amplitude array holds floats, the rest of the model reals: an infinite
    or undefined amplitude is outside the model of [Dynamics]. *)
Fixpoint reals (l : list flt) : Res (list R) :=
  match l with
  | [] => Ok []
  | F x :: t => r <- reals t;; Ok (x :: r)
  | _ => Raise ValueError
  end.

(** [amps[:, j] = pulse] on an array of [n] rows: numpy broadcasts an array
    of one element. *)
Definition column (n : nat) (p : list R) : Res (list R) :=
  if length p =? n then Ok p
  else match p with [x] => Ok (repeat x n) | _ => Raise ValueError end.

(** 1163-1170: the loop over the generators; [x] is what is left of the
    vector.  [x[a:b]] is shorter than [b - a] at the end of the vector. *)
Fixpoint crab_columns (n : nat) (x : list R) (l : list pgen) : Res (list pgen * list (list R)) :=
  match l with
  | [] => Ok ([], [])
  | g :: l' =>
      let k := p_nvars g in
      g <- set_vars_of (firstn k x) g;;
      '(g, pulse) <- gen_pulse 0 rnd GNone g;;
      p <- reals pulse;;
      c <- column n p;;
      '(gs, cs) <- crab_columns n (skipn k x) l';;
      Ok (g :: gs, c :: cs)
  end.

(** An array with the given columns; row [k]. *)
Definition row_of (cs : list (list R)) (k : nat) : list R := map (fun c => nth k c 0%R) cs.

(** optimizer.py:1140-1172 [_get_ctrl_amps].  [np.empty] leaves the columns
    without a generator undefined and more generators than columns are an
    IndexError; init_optim has excluded both. *)
Definition crab_to_amps (x : list R) (d : dyn A) (G : pulse_gens) : Res (pulse_gens * amps) :=
  match G with
  | PgList l =>
      '(_, m) <- get_num_ctrls d;;
      if length l =? m then
        '(gs, cs) <- crab_columns (n_ts d) x l;;
        Ok (PgList gs, map (row_of cs) (range (n_ts d)))
      else Raise IndexError
  | _ => Raise TypeError
  end.
End Crab.
