(** Vocabulary for C91: the names of the pulse types, of the attributes of a
    generator, and their documented defaults. *)
From Coq Require Import Reals List String.
From Verif.Model Require Import PulseGen.
Import ListNotations.
Local Open Scope R_scope.

(** The pulse types that can be asked for, and the class of each. *)
Definition kinds : list (string * cls) :=
  [("RND", CRnd); ("RNDFOURIER", CFourier); ("RNDWAVES", CWaves); ("RNDWALK1", CWalk1); ("RNDWALK2", CWalk2);
   ("LIN", CLin); ("ZERO", CZero); ("SINE", CSine); ("SQUARE", CSquare); ("SAW", CSaw); ("TRIANGLE", CTri);
   ("GAUSSIAN", CGauss); ("CRAB_FOURIER", CCrab); ("GAUSSIAN_EDGE", CEdge)]%string.

(** The Python name of the attribute an assignment is for. *)
Definition name_of (a : attr) : string :=
  match a with
  | ANum _ => "num_tslots" | ATime _ => "pulse_time" | AScale _ => "scaling" | AOffset _ => "offset" | ATau _ => "tau"
  | ALb _ => "lbound" | AUb _ => "ubound" | ARamp _ => "ramping_pulse"
  | AMinWl _ => "min_wavelen" | AMaxWl _ => "max_wavelen" | AComp _ => "num_comp_waves"
  | AMaxD _ => "max_d_amp" | AMaxD2 _ => "max_d2_amp"
  | AGrad _ => "gradient" | AStart _ => "start_val" | AEnd _ => "end_val"
  | AWaves _ => "num_waves" | AWlen _ => "wavelen" | AFreq _ => "freq" | APhase _ => "start_phase"
  | AMean _ => "mean" | AVar _ => "variance" | ADecay _ => "decay_time"
  | ANumCoeffs _ => "num_coeffs" | ARandCoeffs _ => "randomize_coeffs" | AGuess _ => "guess_pulse"
  | AAction _ => "guess_pulse_action" | ARandFreqs _ => "randomize_freqs" | AFixFreqs _ => "fix_freqs"
  | ANumBasis _ => "num_basis_funcs"
  end%string.

(** The attribute named in [a] has the value in [a]. *)
Definition holds (g : pgen) (a : attr) : Prop :=
  match a with
  | ANum x => p_n g = x | ATime x => p_T g = x | AScale x => p_scale g = x | AOffset x => p_offset g = x
  | ATau x => p_tau g = x | ALb x => p_lb g = x | AUb x => p_ub g = x | ARamp x => p_ramp g = x
  | AMinWl x => p_minwl g = x | AMaxWl x => p_maxwl g = x | AComp x => p_comp g = x
  | AMaxD x => p_maxd g = x | AMaxD2 x => p_maxd2 g = x
  | AGrad x => p_grad g = x | AStart x => p_start g = x | AEnd x => p_end g = x
  | AWaves x => p_waves g = x | AWlen x => p_wlen g = x | AFreq x => p_freq g = x | APhase x => p_phase g = x
  | AMean x => p_mean g = x | AVar x => p_var g = x | ADecay x => p_decay g = x
  | ANumCoeffs x => p_ncoef g = x | ARandCoeffs x => p_randc g = x | AGuess x => p_guess g = x
  | AAction x => p_action g = x | ARandFreqs x => p_randf g = x | AFixFreqs x => p_fix g = x
  | ANumBasis x => p_nbasis g = x
  end.

(** A parameter and its value, the last one when a name occurs twice; and
    an attribute without parameter. *)
Definition given (ps : list attr) (a : attr) : Prop :=
  exists l r, ps = l ++ a :: r /\ ~ In (name_of a) (map name_of r).
Definition absent (ps : list attr) (a : attr) : Prop := ~ In (name_of a) (map name_of ps).

(** The documented values of a generator of class [c] made for the Dynamics
    object [d], or for none, whose pulse lasts [T]. *)
Definition defaults (d : option parent) (c : cls) (T : R) : list attr :=
  match d with
  | Some p => [ANum (pa_n p); ATime (pa_T p); AScale (pa_scale p); AOffset (pa_offset p); ATau (Some (pa_tau p))]
  | None => [ANum 100; ATime 1; AScale 1; AOffset 0; ATau None]
  end ++ [ALb BNo; AUb BNo; ARamp None] ++
  match c with
  | CZero | CRnd => []
  | CFourier => [AMinWl (T / 10)]
  | CWaves => [AComp 20; AMinWl (T / 10); AMaxWl (2 * T)]
  | CWalk1 => [AMaxD (/ 10)]
  | CWalk2 => [AMaxD2 (/ 100)]
  | CLin => [AGrad None; AStart (Some (-1)); AEnd (Some 1)]
  | CSine | CSquare | CSaw | CTri => [AWaves None; AFreq (Some 1); AWlen None; APhase 0]
  | CGauss => [AMean (T / 2); AVar (T / 2)]
  | CEdge => [ADecay (T / 10)]
  | CCrab => [ANumBasis 2; ARandCoeffs true; AAction (Some "MODULATE"%string); AGuess None; ARandFreqs true]
  end.
