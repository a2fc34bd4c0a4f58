(** What a CRAB pulse is, and which generators can produce one. *)
From Coq Require Import Reals List.
From Verif.Model Require Import Str Base Float PulseGen.
From Verif.Spec Require Import Evolution Pulses.
Import ListNotations.
Local Open Scope R_scope.

(** The coefficients: row [i] belongs to the [i]-th frequency; its columns
    are the coefficients of sine and cosine and, when the frequencies are
    optimised too, the frequency. *)
Definition coeff (c : list (list R)) (i j : nat) : R := nth j (nth i c []) 0.

(** The Fourier sum at time [t], with the frequencies [w]. *)
Definition fourier_sum (c : list (list R)) (w : nat -> R) (t : R) : R :=
  fold_right Rplus 0 (map (fun i => coeff c i 0 * sin (w i * t) + coeff c i 1 * cos (w i * t))
                          (seq 0 (length c))).

(** A guess pulse is added to, or modulated by, the pulse. *)
Definition with_guess (guess : option (list R)) (f : gfun) (k : nat) (y : R) : R :=
  match guess, f with
  | None, _ => y
  | Some l, Add => y + at_ l k
  | Some l, Modulate => (1 + y) * at_ l k
  end.
Definition with_ramp (ramp : option (list R)) (k : nat) (y : R) : R :=
  match ramp with None => y | Some r => y * at_ r k end.

(** How bounds are enforced.  [s] only matters when the range does not contain
    zero and is bounded on one side: there the pulse is squashed around a
    point at distance [s] from the bound. *)
Definition squash (lb ub : option R) (s : R) (y : R) : R :=
  match lb, ub with
  | None, None => y
  | Some l, Some u => (u + l) / 2 + tanh y * ((u - l) / 2)
  | None, Some u =>
      if Rlt_dec 0 u then (if Rlt_dec 0 y then u * tanh y else y)
      else if Rlt_dec (u - Rabs s) y then u - Rabs s + s * tanh y else y
  | Some l, None =>
      if Rlt_dec l 0 then (if Rlt_dec y 0 then - l * tanh y else y)
      else if Rlt_dec y (l + Rabs s) then l + Rabs s + s * tanh y else y
  end.

Definition number (b : battr) : option R := match b with BVal (F x) => Some x | _ => None end.

(** The amplitude range of the guess pulse. *)
Definition extent (guess : option (list R)) : R :=
  match guess with
  | None => 0
  | Some l => let hi := fold_right Rmax (at_ l 0) l in
              let lo := fold_right Rmin (at_ l 0) l in Rmax (hi - lo) hi
  end.

(** A list of floats that are the numbers [l]. *)
Definition nums (o : option (list flt)) (l : option (list R)) : Prop := o = option_map (map F) l.

Definition action_of (a : option string) (f : gfun) : Prop :=
  exists s, a = Some s /\ match f with Modulate => upper s = "MODULATE"%string | Add => upper s = "ADD"%string end.

(** A CRAB generator configured so that a pulse can be made: [guess] and
    [ramp] are its guess and ramping pulses. *)
Record prepared (g : pgen) (guess ramp : option (list R)) (f : gfun) : Prop := {
  us_cls : p_cls g = CCrab;
  us_n : (0 < p_n g)%nat;
  us_T : p_T g <> 0;
  us_time : p_uses_time g = true;       (* a constant of the class *)
  us_tau : match p_tau g with None => True | Some l => (p_n g <= S (length l))%nat end;
  us_bounds : ordered (p_lb g) (p_ub g);
  us_guess : nums (p_guess g) guess;
  us_glen : match guess with None => p_gfun g = None | Some l => length l = p_n g /\ action_of (p_action g) f end;
  us_ramp : nums (p_ramp g) ramp;
  us_rlen : match ramp with None => True | Some l => length l = p_n g end;
}.
(** A column for the sines, one for the cosines and one for the frequencies
    if these are optimised. *)
Definition enough_columns (g : pgen) : Prop := ((if p_fix g then 2 else 3) <= p_nbasis g)%nat.
Definition usable (g : pgen) guess ramp f : Prop := prepared g guess ramp f /\ enough_columns g.

Definition finite_list (o : option (list flt)) : Prop := match o with None => True | Some l => Forall fin l end.

(** What may happen to a generator while its bounds are to hold: anything
    except assigning other bounds (or [reset], which drops them); guess and
    ramping pulses may be replaced by other finite ones. *)
Definition attr_fine (a : attr) : Prop :=
  match a with
  | ALb _ | AUb _ => False
  | AGuess l | ARamp l => finite_list l
  | _ => True
  end.
Definition pop_fine (o : pop) : Prop :=
  match o with
  | PSet a => attr_fine a
  | PApply ps => ps <> [] /\ Forall attr_fine ps
  | PReset => False
  | _ => True
  end.

(** A CRAB generator with [n] timeslots, initialised and then used by an
    optimiser in any way. *)
Inductive in_use (n : nat) : pgen -> Prop :=
| iu_init rnd nc v g guess ramp f g1 : usable g guess ramp f -> p_n g = n ->
    init_pulse rnd (ICrab nc v) g = Ok g1 -> in_use n g1
| iu_set v g g1 : in_use n g -> set_coeffs v g = Ok g1 -> in_use n g1
| iu_gen fuel rnd g g1 p : in_use n g -> gen_pulse fuel rnd GNone g = Ok (g1, p) -> in_use n g1.

(** The part of [x] that starts at [i] and has [k] elements. *)
Definition part (x : list R) (i k : nat) : list R := firstn k (skipn i x).
(** The variables of the generators before number [j]. *)
Definition before (gens : list pgen) (j : nat) : nat := list_sum (map p_nvars (firstn j gens)).

(** Attribute values: [a] holds of [g] when assigning it changes nothing. *)
Definition holds (a : attr) (g : pgen) : Prop := setattr g a = g.
(** Which attribute an assignment is about. *)
Definition name_of (a : attr) : string :=
  (match a with
   | ANum _ => "num_tslots" | ATime _ => "pulse_time" | AScale _ => "scaling" | AOffset _ => "offset"
   | ATau _ => "tau" | ALb _ => "lbound" | AUb _ => "ubound" | ARamp _ => "ramping_pulse"
   | AMinWl _ => "min_wavelen" | AMaxWl _ => "max_wavelen" | AComp _ => "num_comp_waves"
   | AMaxD _ => "max_d_amp" | AMaxD2 _ => "max_d2_amp" | AGrad _ => "gradient" | AStart _ => "start_val"
   | AEnd _ => "end_val" | AWaves _ => "num_waves" | AWlen _ => "wavelen" | AFreq _ => "freq"
   | APhase _ => "start_phase" | AMean _ => "mean" | AVar _ => "variance" | ADecay _ => "decay_time"
   | ANumCoeffs _ => "num_coeffs" | ARandCoeffs _ => "randomize_coeffs" | AGuess _ => "guess_pulse"
   | AAction _ => "guess_pulse_action" | ARandFreqs _ => "randomize_freqs" | AFixFreqs _ => "fix_freqs"
   | ANumBasis _ => "num_basis_funcs"
   end)%string.
(** [a] is the last value the dictionary [ps] gives that attribute. *)
Definition gives (ps : list attr) (a : attr) : Prop :=
  exists l1 l2, ps = l1 ++ a :: l2 /\ Forall (fun b => name_of b <> name_of a) l2.

(** *** What a parameter dictionary leaves in force after [reset] *)
(** The last value the dictionary gives an attribute, or else its default. *)
Definition in_force {X} (ps : list attr) (pick : attr -> option X) (default : X) : X :=
  fold_left (fun x a => match pick a with Some y => y | None => x end) ps default.
Definition slots_in (d : option parent) (ps : list attr) : nat :=
  in_force ps (fun a => match a with ANum n => Some n | _ => None end)
    (match d with Some d => pa_n d | None => 100%nat end).
Definition time_in (d : option parent) (ps : list attr) : R :=
  in_force ps (fun a => match a with ATime x => Some x | _ => None end) (match d with Some d => pa_T d | None => 1 end).
Definition tau_in (d : option parent) (ps : list attr) : option (list R) :=
  in_force ps (fun a => match a with ATau l => Some l | _ => None end) (option_map pa_tau d).
Definition lb_in (ps : list attr) : battr := in_force ps (fun a => match a with ALb b => Some b | _ => None end) BNo.
Definition ub_in (ps : list attr) : battr := in_force ps (fun a => match a with AUb b => Some b | _ => None end) BNo.
Definition guess_in (ps : list attr) : option (list flt) :=
  in_force ps (fun a => match a with AGuess l => Some l | _ => None end) None.
Definition action_in (ps : list attr) : option string :=
  in_force ps (fun a => match a with AAction s => Some s | _ => None end) (Some "MODULATE"%string).
Definition ramp_in (ps : list attr) : option (list flt) :=
  in_force ps (fun a => match a with ARamp l => Some l | _ => None end) None.
(** [reset] does not write fix_freqs: without an entry it keeps its value. *)
Definition fix_in (ps : list attr) (before : bool) : bool :=
  in_force ps (fun a => match a with AFixFreqs b => Some b | _ => None end) before.
Definition columns_in (ps : list attr) : nat :=
  in_force ps (fun a => match a with ANumBasis n => Some n | _ => None end) 2%nat.

(** A parent and a dictionary that make sense together. *)
Record sensible (d : option parent) (ps : list attr) (guess ramp : option (list R)) (f : gfun) : Prop := {
  se_n : (0 < slots_in d ps)%nat;
  se_T : time_in d ps <> 0;
  se_tau : match tau_in d ps with None => True | Some l => (slots_in d ps <= S (length l))%nat end;
  se_bounds : ordered (lb_in ps) (ub_in ps);
  se_guess : nums (guess_in ps) guess;
  se_glen : match guess with None => True | Some l => length l = slots_in d ps /\ action_of (action_in ps) f end;
  se_ramp : nums (ramp_in ps) ramp;
  se_rlen : match ramp with None => True | Some l => length l = slots_in d ps end;
}.
