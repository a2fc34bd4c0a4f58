(** Model of src/qutip_qtrl/pulsegen.py: the pulse generators.  One record
    holds the attributes of all the classes and a tag says which class the
    object has; a method looks at the tag where a subclass overrides it.

    Random numbers are external: each call gets a stream [rnd], read in the
    order in which the code draws, every draw between 0 and 1.
    Simplifications: float rounding and single precision (np.ones(..,
    dtype="f"), line 232) are not modelled; logging and prints are left out,
    as are the informational flags [periodic] and [random]; the state of an
    object after an exception is not tracked; attribute values have the type
    the class expects. *)
From Coq Require Import Reals.
From RecordUpdate Require Import RecordUpdate.
From Verif.Model Require Export Str Base Float OptVars.
Local Open Scope R_scope.

Inductive cls :=
| CZero | CRnd | CFourier | CWaves | CWalk1 | CWalk2 | CLin
| CSine | CSquare | CSaw | CTri | CGauss | CEdge
| CCrab.     (* PulseGenCrabFourier *)

(** lbound / ubound: None, a number, or (pulseoptim.py:2096-2097) a list. *)
Inductive battr := BNo | BVal (x : flt) | BSeq (l : list flt).

(** _BSC_ALL, _BSC_GT_MEAN, _BSC_LT_MEAN (1005-1007). *)
Inductive bcond := BscAll | BscGt | BscLt.
Inductive gfun := Modulate | Add.

(** The attributes of the Dynamics object that are read (161-169, 1066-1068). *)
Record parent := mkParent {
  pa_n : nat; pa_T : R; pa_scale : R; pa_offset : R; pa_tau : list R; pa_dim : nat }.

(** What [setattr] may be given, and the parameter dictionaries (187-201). *)
Inductive attr :=
| ANum (n : nat) | ATime (x : R) | AScale (x : R) | AOffset (x : R) | ATau (l : option (list R))
| ALb (b : battr) | AUb (b : battr) | ARamp (l : option (list flt))
| AMinWl (x : R) | AMaxWl (x : R) | AComp (n : nat) | AMaxD (x : R) | AMaxD2 (x : R)
| AGrad (x : option flt) | AStart (x : option R) | AEnd (x : option R)
| AWaves (x : option R) | AWlen (x : option R) | AFreq (x : option R) | APhase (x : R)
| AMean (x : R) | AVar (x : R) | ADecay (x : R)
| ANumCoeffs (n : option nat) | ARandCoeffs (b : bool) | AGuess (l : option (list flt))
| AAction (s : option string) | ARandFreqs (b : bool) | AFixFreqs (b : bool) | ANumBasis (n : nat).

Record pgen := mkPG {
  p_cls : cls;
  p_parent : option parent;
  p_params : list attr;               (* params; [] when not a dictionary *)
  p_n : nat;                          (* num_tslots *)
  p_T : R;                            (* pulse_time *)
  p_scale : R;                        (* scaling *)
  p_offset : R;
  p_tau : option (list R);
  p_uses_time : bool;                 (* _uses_time *)
  p_time : option (list R);           (* time *)
  p_ready : bool;                     (* _pulse_initialised *)
  p_lb : battr;
  p_ub : battr;
  p_ramp : option (list flt);         (* ramping_pulse *)
  p_minwl : R; p_maxwl : R;           (* min_wavelen, max_wavelen *)
  p_comp : nat;                       (* num_comp_waves *)
  p_maxd : R; p_maxd2 : R;            (* max_d_amp, max_d2_amp *)
  p_grad : option flt;                (* gradient *)
  p_start : option R; p_end : option R;
  p_waves : option R; p_wlen : option R; p_freq : option R;
  p_phase : R;                        (* start_phase *)
  p_mean : R; p_var : R; p_decay : R;
  p_ncoef : option nat;               (* num_coeffs *)
  p_nbasis : nat;                     (* num_basis_funcs *)
  p_nvars : nat;                      (* num_optim_vars *)
  p_coeffs : option (list (list R));
  p_randc : bool;                     (* randomize_coeffs *)
  p_action : option string;           (* guess_pulse_action *)
  p_guess : option (list flt);        (* guess_pulse *)
  p_gfun : option gfun;               (* guess_pulse_func *)
  p_freqs : option (list R);
  p_randf : bool;                     (* randomize_freqs *)
  p_fix : bool;                       (* fix_freqs *)
  p_cond : option bcond;              (* _bound_scale_cond *)
  p_bmean : flt; p_bscale : flt;      (* _bound_mean, _bound_scale *)
}.
#[export] Instance eta_pgen : Settable _ := settable! mkPG
  <p_cls; p_parent; p_params; p_n; p_T; p_scale; p_offset; p_tau; p_uses_time; p_time; p_ready;
   p_lb; p_ub; p_ramp; p_minwl; p_maxwl; p_comp; p_maxd; p_maxd2; p_grad; p_start; p_end;
   p_waves; p_wlen; p_freq; p_phase; p_mean; p_var; p_decay; p_ncoef; p_nbasis; p_nvars;
   p_coeffs; p_randc; p_action; p_guess; p_gfun; p_freqs; p_randf; p_fix; p_cond; p_bmean;
   p_bscale>.

Definition setattr (g : pgen) (a : attr) : pgen :=
  match a with
  | ANum n => g <| p_n := n |> | ATime x => g <| p_T := x |>
  | AScale x => g <| p_scale := x |> | AOffset x => g <| p_offset := x |>
  | ATau l => g <| p_tau := l |>
  | ALb b => g <| p_lb := b |> | AUb b => g <| p_ub := b |> | ARamp l => g <| p_ramp := l |>
  | AMinWl x => g <| p_minwl := x |> | AMaxWl x => g <| p_maxwl := x |>
  | AComp n => g <| p_comp := n |> | AMaxD x => g <| p_maxd := x |>
  | AMaxD2 x => g <| p_maxd2 := x |>
  | AGrad x => g <| p_grad := x |> | AStart x => g <| p_start := x |>
  | AEnd x => g <| p_end := x |>
  | AWaves x => g <| p_waves := x |> | AWlen x => g <| p_wlen := x |>
  | AFreq x => g <| p_freq := x |> | APhase x => g <| p_phase := x |>
  | AMean x => g <| p_mean := x |> | AVar x => g <| p_var := x |>
  | ADecay x => g <| p_decay := x |>
  | ANumCoeffs n => g <| p_ncoef := n |> | ARandCoeffs b => g <| p_randc := b |>
  | AGuess l => g <| p_guess := l |> | AAction s => g <| p_action := s |>
  | ARandFreqs b => g <| p_randf := b |> | AFixFreqs b => g <| p_fix := b |>
  | ANumBasis n => g <| p_nbasis := n |>
  end.

(** 187-201 [apply_params]: [if not params: params = self.params]. *)
Definition apply_params (ps : list attr) (g : pgen) : pgen :=
  let ps := match ps with [] => p_params g | _ => ps end in
  match ps with [] => g | _ => fold_left setattr ps (g <| p_params := ps |>) end.

(** 157-185 [PulseGen.reset]. *)
Definition reset_base (g : pgen) : pgen :=
  let g := match p_parent g with
           | Some d => g <| p_n := pa_n d |> <| p_T := pa_T d |> <| p_scale := pa_scale d |>
                         <| p_offset := pa_offset d |> <| p_tau := Some (pa_tau d) |>
           | None => g <| p_n := 100%nat |> <| p_T := 1 |> <| p_scale := 1 |> <| p_tau := None |>
                       <| p_offset := 0 |>
           end in
  apply_params []
    (g <| p_uses_time := false |> <| p_time := None |> <| p_ready := false |>
       <| p_lb := BNo |> <| p_ub := BNo |> <| p_ramp := None |>).

(** 997-1018 [PulseGenCrab.reset]; num_coeffs and fix_freqs keep their value. *)
Definition reset_crab (g : pgen) : pgen :=
  apply_params []
    (reset_base g <| p_uses_time := true |> <| p_time := None |> <| p_nbasis := 2%nat |>
       <| p_nvars := 0%nat |> <| p_coeffs := None |> <| p_randc := true |>
       <| p_action := Some "MODULATE"%string |> <| p_guess := None |> <| p_gfun := None |>).

(** The [reset] of each class: 157 (ZERO), 318, 354, 434, 518, 567, 624, 701,
    881, 931, 1257. *)
Definition reset (g : pgen) : pgen :=
  match p_cls g with
  | CZero => reset_base g
  | CRnd => apply_params [] (reset_base g)
  | CFourier =>
      let g := reset_base g <| p_uses_time := true |> in
      apply_params [] (g <| p_minwl := p_T g / 10 |>)
  | CWaves =>
      let g := reset_base g <| p_uses_time := true |> <| p_comp := 20%nat |> in
      apply_params [] (g <| p_minwl := p_T g / 10 |> <| p_maxwl := 2 * p_T g |>)
  | CWalk1 => apply_params [] (reset_base g <| p_maxd := / 10 |>)
  | CWalk2 => apply_params [] (reset_base g <| p_maxd2 := / 100 |>)
  | CLin => apply_params [] (reset_base g <| p_grad := None |> <| p_start := Some (-1) |>
                               <| p_end := Some 1 |>)
  | CSine | CSquare | CSaw | CTri =>
      apply_params [] (reset_base g <| p_waves := None |> <| p_freq := Some 1 |>
                         <| p_wlen := None |> <| p_phase := 0 |>)
  | CGauss =>
      let g := reset_base g <| p_uses_time := true |> in
      apply_params [] (g <| p_mean := / 2 * p_T g |> <| p_var := / 2 * p_T g |>)
  | CEdge =>
      let g := reset_base g <| p_uses_time := true |> in
      apply_params [] (g <| p_decay := p_T g / 10 |>)
  | CCrab => reset_crab g <| p_freqs := None |> <| p_randf := true |>
  end.

(** An object before [__init__]; no attribute of it is read before [reset]
    has written it. *)
Definition blank (c : cls) (d : option parent) (ps : list attr) : pgen :=
  mkPG c d ps 0 0 0 0 None false None false BNo BNo None 0 0 0 0 0 None None None None None None
       0 0 0 0 None 0 0 None false None None None None false false None FNan FNan.

(** 152-155 [PulseGen.__init__]. *)
Definition new_gen (c : cls) (d : option parent) (ps : list attr) : pgen := reset (blank c d ps).

(** 991-995, 1250-1255: construction of a PulseGenCrabFourier. *)
Definition new_crab (d : option parent) (ncoef : option nat) (ps : list attr) (fix_freqs : bool) : pgen :=
  let g := reset (blank CCrab d ps <| p_ncoef := ncoef |>) in
  let g := g <| p_fix := fix_freqs |> in
  if negb (p_fix g) then g <| p_nbasis := S (p_nbasis g) |> else g.

(** 25-84 [create_pulse_gen]. *)
Definition create_pulse_gen (ty : string) (d : option parent) (ps : list attr) : Res pgen :=
  (if ty =? "RND" then Ok (new_gen CRnd d ps)
   else if ty =? "RNDFOURIER" then Ok (new_gen CFourier d ps)
   else if ty =? "RNDWAVES" then Ok (new_gen CWaves d ps)
   else if ty =? "RNDWALK1" then Ok (new_gen CWalk1 d ps)
   else if ty =? "RNDWALK2" then Ok (new_gen CWalk2 d ps)
   else if ty =? "LIN" then Ok (new_gen CLin d ps)
   else if ty =? "ZERO" then Ok (new_gen CZero d ps)
   else if ty =? "SINE" then Ok (new_gen CSine d ps)
   else if ty =? "SQUARE" then Ok (new_gen CSquare d ps)
   else if ty =? "SAW" then Ok (new_gen CSaw d ps)
   else if ty =? "TRIANGLE" then Ok (new_gen CTri d ps)
   else if ty =? "GAUSSIAN" then Ok (new_gen CGauss d ps)
   else if ty =? "CRAB_FOURIER" then Ok (new_crab d None ps true)
   else if ty =? "GAUSSIAN_EDGE" then Ok (new_gen CEdge d ps)
   else Raise ValueError)%string.

(** 239-240: time[0] = 0, time[k+1] = time[k] + tau[k] for k < num_tslots-1. *)
Fixpoint times (t : R) (tau : list R) (n : nat) {struct n} : Res (list R) :=
  match n with
  | 0 => Ok []
  | 1 => Ok [t]
  | S n' => match tau with
            | [] => Raise IndexError
            | x :: tau' => r <- times (t + x) tau' n';; Ok (t :: r)
            end
  end.

(** 244-249: infinite bounds become None.  A list makes the truth value of
    np.isinf(..) ambiguous, a ValueError (lists of one element, for which it
    is not, are treated alike). *)
Definition norm_bound (b : battr) : Res battr :=
  match b with
  | BNo => Ok BNo
  | BVal x => Ok (if fisinf x then BNo else BVal x)
  | BSeq _ => Raise ValueError
  end.

(** 225-252 [PulseGen.init_pulse].  An empty tau divided by num_tslots = 0 is
    an empty array. *)
Definition init_base (g : pgen) : Res pgen :=
  let g := match p_tau g with
           | None => g <| p_tau := Some (repeat (1 * p_T g / INR (p_n g)) (p_n g)) |>
           | Some _ => g
           end in
  g <- (if p_uses_time g
        then match p_tau g with
             | Some tau => ts <- times 0 tau (p_n g);; Ok (g <| p_time := Some ts |>)
             | None => Raise TypeError
             end
        else Ok g);;
  let g := g <| p_ready := true |> in
  lb <- norm_bound (p_lb g);;
  let g := g <| p_lb := lb |> in
  ub <- norm_bound (p_ub g);;
  let g := g <| p_ub := ub |> in
  match p_ub g, p_lb g with
  | BVal u, BVal l => if fltb u l then Raise ValueError else Ok g
  | _, _ => Ok g
  end.

(** [self.tau[-1]]. *)
Definition last_tau (g : pgen) : Res R :=
  match p_tau g with
  | Some tau => match rev tau with x :: _ => Ok x | [] => Raise IndexError end
  | None => Raise TypeError
  end.

(** 635-648 [PulseGenLinear.init_pulse]; its [gradient] argument is not read. *)
Definition init_linear (gradient start_val end_val : option R) (g : pgen) : Res pgen :=
  g <- init_base g;;
  let g := match start_val, end_val with
           | Some s, Some e => g <| p_start := Some s |> <| p_end := Some e |>
           | _, _ => g
           end in
  match p_start g, p_end g with
  | Some s, Some e =>
      tl <- last_tau g;;
      Ok (g <| p_grad := Some (fdiv (F (e - s)) (F (p_T g - tl))) |>)
  | _, _ => Ok g
  end.

(** Division of Python floats. *)
Definition pydiv (x y : R) : Res R := if Req_EM_T y 0 then Raise ZeroDivisionError else Ok (x / y).

(** 713-741 [PulseGenPeriodic.init_pulse]. *)
Definition init_periodic (num_waves wavelen freq start_phase : option R) (g : pgen) : Res pgen :=
  g <- init_base g;;
  let g := match start_phase with Some x => g <| p_phase := x |> | None => g end in
  let g := match num_waves, wavelen, freq with
           | None, None, None => g
           | _, _, _ => g <| p_waves := num_waves |> <| p_wlen := wavelen |> <| p_freq := freq |>
           end in
  match p_waves g, p_wlen g with
  | Some nw, _ =>
      f <- pydiv nw (p_T g);;
      w <- pydiv 1 f;;
      Ok (g <| p_freq := Some f |> <| p_wlen := Some w |>)
  | None, Some w =>
      f <- pydiv 1 w;;
      Ok (g <| p_freq := Some f |> <| p_waves := Some (w * p_T g) |>)
  | None, None =>
      match p_freq g with
      | None => Raise TypeError
      | Some f =>
          w <- pydiv 1 f;;
          Ok (g <| p_wlen := Some w |> <| p_waves := Some (w * p_T g) |>)
      end
  end.

(** 1103-1113. *)
Definition estimate_num_coeffs (dim : nat) : nat := Nat.max 2 (dim - 1).
Definition DEF_NUM_COEFFS : nat := 4.

(** 1134-1137 [set_coeffs] (the value has to be an ndarray). *)
Definition set_coeffs (v : list R) (g : pgen) : Res pgen :=
  match p_ncoef g with
  | None => Raise TypeError
  | Some nc => c <- reshape nc (p_nbasis g) v;; Ok (g <| p_coeffs := Some c |>)
  end.

(** 1045-1101 [init_coeffs]; [rnd] fills the array row by row. *)
Definition init_coeffs (rnd : nat -> R) (num_coeffs : option nat) (v : option (list R)) (g : pgen) : Res pgen :=
  let g := match num_coeffs with Some (S k) => g <| p_ncoef := Some (S k) |> | _ => g end in
  let nc := match p_ncoef g with
            | Some (S k) => S k
            | _ => match p_parent g with
                   | Some d => estimate_num_coeffs (pa_dim d)
                   | None => DEF_NUM_COEFFS
                   end
            end in
  let g := g <| p_ncoef := Some nc |> <| p_nvars := (nc * p_nbasis g)%nat |> in
  match v with
  | Some v => set_coeffs v g
  | None =>
      let c i j := if p_randc g then (2 * rnd (i * p_nbasis g + j)%nat - 1) * p_scale g
                   else 1 * p_scale g in
      Ok (g <| p_coeffs := Some (map (fun i => map (c i) (range (p_nbasis g))) (range nc)) |>)
  end.

(** 1139-1151 [init_guess_pulse]: [logger.WARN] does not exist on a logger, so
    an empty or unknown action raises AttributeError. *)
Definition init_guess (g : pgen) : Res pgen :=
  match p_action g with
  | None => Raise AttributeError
  | Some a =>
      (if a =? "" then Raise AttributeError
       else if upper a =? "MODULATE" then Ok (g <| p_gfun := Some Modulate |>)
       else if upper a =? "ADD" then Ok (g <| p_gfun := Some Add |>)
       else Raise AttributeError)%string
  end.

(** 1199-1206 [get_guess_pulse_scale]. *)
Definition guess_scale (g : pgen) : Res flt :=
  match p_guess g with
  | None => Ok (F 0)
  | Some l =>
      hi <- npmax l;; lo <- npmin l;;
      let a := fsub hi lo in
      Ok (if fltb a hi then hi else a)
  end.

(** 1161-1197 [_init_bounds]. *)
Definition init_bounds (nc : nat) (g : pgen) : Res pgen :=
  match p_lb g, p_ub g with
  | BNo, BNo => Ok (g <| p_cond := None |>)
  | BNo, BVal u =>
      g <- (if fltb (F 0) u
            then Ok (g <| p_bmean := F 0 |> <| p_bscale := u |>)
            else gs <- guess_scale g;;
                 let s := fadd (F (p_scale g * INR nc)) gs in
                 Ok (g <| p_bscale := s |> <| p_bmean := fadd (fopp (fabs s)) u |>));;
      Ok (g <| p_cond := Some BscGt |>)
  | BVal l, BNo =>
      g <- (if fltb l (F 0)
            then Ok (g <| p_bmean := F 0 |> <| p_bscale := fabs l |>)
            else gs <- guess_scale g;;
                 let s := fadd (F (p_scale g * INR nc)) gs in
                 Ok (g <| p_bscale := s |> <| p_bmean := fadd (fabs s) l |>));;
      Ok (g <| p_cond := Some BscLt |>)
  | BVal l, BVal u =>
      Ok (g <| p_bmean := fmul (F (/ 2)) (fadd u l) |> <| p_bscale := fmul (F (/ 2)) (fsub u l) |>
            <| p_cond := Some BscAll |>)
  | _, _ => Raise TypeError
  end.

(** 1275-1287 [init_freqs]. *)
Definition init_freqs (rnd : nat -> R) (nc : nat) (g : pgen) : Res pgen :=
  ff <- pydiv (2 * PI) (p_T g);;
  Ok (g <| p_freqs := Some (map (fun i => ff * INR (i + 1)
                                      + (if p_randf g then rnd (nc * p_nbasis g + i)%nat - / 2 else 0))
                            (range nc)) |>).

Definition ncoef_of (g : pgen) : nat := match p_ncoef g with Some k => k | None => 0 end.

(** 1020-1038 and 1265-1273 [PulseGenCrabFourier.init_pulse]. *)
Definition init_crab (rnd : nat -> R) (num_coeffs : option nat) (v : option (list R)) (g : pgen) : Res pgen :=
  g <- init_base g;;
  g <- init_coeffs rnd num_coeffs v g;;
  g <- match p_guess g with
       | Some _ => init_guess (g <| p_gfun := None |>)
       | None => Ok g
       end;;
  g <- init_bounds (ncoef_of g) g;;
  init_freqs rnd (ncoef_of g) g.

(** Arguments of [init_pulse]. *)
Inductive iargs :=
| INone
| ILinear (gradient start_val end_val : option R)
| IPeriodic (num_waves wavelen freq start_phase : option R)
| ICrab (num_coeffs : option nat) (coeffs : option (list R)).

Definition is_periodic (c : cls) : bool :=
  match c with CSine | CSquare | CSaw | CTri => true | _ => false end.

Definition init_pulse (rnd : nat -> R) (ia : iargs) (g : pgen) : Res pgen :=
  match p_cls g, ia with
  | CLin, INone => init_linear None None None g
  | CLin, ILinear a b c => init_linear a b c g
  | (CSine | CSquare | CSaw | CTri), INone => init_periodic None None None None g
  | (CSine | CSquare | CSaw | CTri), IPeriodic a b c d => init_periodic a b c d g
  | CCrab, INone => init_crab rnd None None g
  | CCrab, ICrab nc v => init_crab rnd nc v g
  | (CLin | CSine | CSquare | CSaw | CTri | CCrab), _ => Raise TypeError
  | _, INone => init_base g
  | _, _ => Raise TypeError
  end.

(** 254-287 [_apply_bounds_and_offset].  Comparing with a list gives an array,
    whose truth value is a ValueError. *)
Definition shift (d : flt) (pulse : list flt) : list flt := map (fun x => fadd x d) pulse.
Definition apply_bounds_and_offset (g : pgen) (pulse : list flt) : Res (list flt) :=
  let off := F (p_offset g) in
  match p_lb g, p_ub g with
  | BNo, BNo => Ok (shift off pulse)
  | BSeq _, _ | _, BSeq _ => Raise ValueError
  | lb, ub =>
      max_amp <- pymax pulse;;
      min_amp <- pymin pulse;;
      let fits_u := match ub with BVal u => fleb (fadd max_amp off) u | _ => true end in
      let fits_l := match lb with BVal l => fleb l (fadd min_amp off) | _ => true end in
      if fits_u && fits_l then Ok (shift off pulse)
      else match lb, ub with
           | BNo, BVal u => Ok (map (fun x => fsub (fadd x u) max_amp) pulse)
           | BVal l, BNo => Ok (map (fun x => fsub (fadd x l) min_amp) pulse)
           | BVal l, BVal u =>
               let bound_range := fsub u l in
               let amp_range := fsub max_amp min_amp in
               let pulse := if fltb bound_range (fsub max_amp min_amp)
                            then map (fun x => fdiv (fmul x bound_range) amp_range) pulse
                            else pulse in
               m <- pymin pulse;;
               Ok (map (fun x => fsub (fadd x l) m) pulse)
           | _, _ => Ok (shift off pulse)
           end
  end.

(** Arguments of [gen_pulse]. *)
Inductive gargs :=
| GNone
| GFourier (min_wavelen : option R)
| GWaves (num_comp_waves : option nat) (min_wavelen max_wavelen : option R)
| GWalk1 (max_d_amp : option R)
| GWalk2 (max_d2_amp : option R)
| GLinear (gradient start_val end_val : option R)
| GPeriodic (num_waves wavelen freq start_phase : option R)
| GGauss (mean variance : option R)
| GEdge (decay_time : option R)
| GCrab (coeffs : option (list (list R))).

Definition or_keep {A} (o : option A) (x : A) : A := match o with Some a => a | None => x end.

(** [if not self._pulse_initialised: self.init_pulse()]. *)
Definition ensure (rnd : nat -> R) (g : pgen) : Res pgen :=
  if p_ready g then Ok g else init_pulse rnd INone g.

Definition tau_of (g : pgen) (e : exn) : Res (list R) :=
  match p_tau g with Some l => Ok l | None => Raise e end.
Definition time_of (g : pgen) : Res (list R) :=
  match p_time g with Some l => Ok l | None => Raise TypeError end.

(** 389-391: the wavelengths from [w] on, halving while above [m]. *)
Fixpoint wavelens (fuel : nat) (w m : R) : Res (list R) :=
  if Rlt_dec m w
  then match fuel with
       | 0 => Raise OutOfFuel
       | S k => r <- wavelens k (w / 2) m;; Ok (w :: r)
       end
  else Ok [].

Definition sqrt8 : R := sqrt 8.

(** 396-401, 491-496: add [amp * sin(2*pi*t/wavelen + phase_off)]. *)
Definition wave (amp wavelen phase_off : R) (t : list R) : list flt :=
  map (fun x => fmul (F amp) (fsin (fadd (fdiv (F (2 * PI * x)) (F wavelen)) (F phase_off)))) t.
Fixpoint add_waves (ws : list (R * R * R)) (t : list R) (sum : list flt) : Res (list flt) :=
  match ws with
  | [] => Ok sum
  | (amp, wl, ph) :: ws' => s <- iadd sum (wave amp wl ph t);; add_waves ws' t s
  end.

(** The random amplitude, phase (and wavelength) drawn for each wave; with no
    wave the scale is not used. *)
Definition fourier_waves (rnd : nat -> R) (scaling : R) (wl : list R) : list (R * R * R) :=
  let amp_scale := sqrt8 * scaling / INR (length wl) in
  map (fun '(i, w) => (amp_scale * (rnd (2 * i)%nat * 2 - 1), w, rnd (2 * i + 1)%nat * PI / 2))
      (combine (range (length wl)) wl).
Definition random_waves (rnd : nat -> R) (scaling minwl maxwl : R) (num : nat) : list (R * R * R) :=
  let amp_scale := sqrt8 * scaling / INR num in
  map (fun i => (amp_scale * (rnd (3 * i)%nat * 2 - 1), minwl + rnd (3 * i + 2)%nat * (maxwl - minwl),
                 rnd (3 * i + 1)%nat * PI / 2))
      (range num).

(** 540-544. *)
Fixpoint walk1 (rnd : nat -> R) (i : nat) (d amp : R) (n : nat) : list flt :=
  match n with
  | 0 => []
  | S n' => F amp :: walk1 rnd (S i) d (amp + (rnd i * 2 - 1) * d) n'
  end.
(** 594-600. *)
Fixpoint walk2 (rnd : nat -> R) (i : nat) (d grad amp : R) (n : nat) : list flt :=
  match n with
  | 0 => []
  | S n' => let grad := grad + (rnd i * 2 - 1) * d in F amp :: walk2 rnd (S i) d grad (amp + grad) n'
  end.

(** 668-673 and the loops of the periodic pulses:
    [pulse[k] = f(t); t = t + tau[k]]. *)
Fixpoint along (f : R -> flt) (t : R) (tau : list R) (n : nat) {struct n} : Res (list flt) :=
  match n with
  | 0 => Ok []
  | S n' => match tau with
            | [] => Raise IndexError
            | x :: tau' => r <- along f (t + x) tau' n';; Ok (f t :: r)
            end
  end.

Definition floor (x : R) : R := IZR (Int_part x).

(** 770, 801-802, 834-835, 867-868: the value at time t, before scaling. *)
Definition periodic_value (c : cls) (freq start_phase t : R) : R :=
  let phase := 2 * PI * freq * t + start_phase in
  match c with
  | CSquare => let x := phase / (2 * PI) in 4 * floor x - 2 * floor (2 * x) + 1
  | CSaw => let x := phase / (2 * PI) in 2 * (x - floor (/ 2 + x))
  | CTri => let x := (phase + PI / 2) / (2 * PI) in 2 * Rabs (2 * (x - floor (/ 2 + x))) - 1
  | _ => sin phase
  end.

(** [if mean:] - zero counts as not given (901-908, 951-954). *)
Definition truthy (o : option R) (x : R) : R :=
  match o with Some a => if Req_EM_T a 0 then x else a | None => x end.

(** 1208-1230 [_apply_bounds]. *)
Definition crab_bounds (g : pgen) (pulse : list flt) : list flt :=
  let squash x := fadd (fmul (ftanh x) (p_bscale g)) (p_bmean g) in
  match p_cond g with
  | Some BscAll => map squash pulse
  | Some BscGt => map (fun x => if fltb (p_bmean g) x then squash x else x) pulse
  | Some BscLt => map (fun x => if fltb x (p_bmean g) then squash x else x) pulse
  | None => pulse
  end.

(** 1153-1159. *)
Definition apply_guess (f : gfun) (guess : option (list flt)) (pulse : list flt) : Res (list flt) :=
  match guess with
  | None => Raise TypeError
  | Some gp =>
      match f with
      | Add => broadcast fadd pulse gp
      | Modulate => broadcast fmul (map (fadd (F 1)) pulse) gp
      end
  end.

(** 1308-1316: the Fourier sum over the coefficients. *)
Definition crab_term (g : pgen) (i : nat) (t : list R) : Res (list flt) :=
  match p_coeffs g with
  | None => Raise TypeError
  | Some cs =>
      row <- get cs i;;
      w <- (if p_fix g
            then match p_freqs g with Some fs => get fs i | None => Raise TypeError end
            else get row 2);;
      a <- get row 0;;
      b <- get row 1;;
      Ok (map (fun x => F (a * sin (w * x) + b * cos (w * x))) t)
  end.
Fixpoint crab_sum (g : pgen) (is : list nat) (t : list R) (sum : list flt) : Res (list flt) :=
  match is with
  | [] => Ok sum
  | i :: is' => w <- crab_term g i t;; s <- iadd sum w;; crab_sum g is' t s
  end.

(** 1289-1323 [PulseGenCrabFourier.gen_pulse].  [if coeffs:] on an array with
    more than one element is a ValueError; a smaller one cannot be right. *)
Definition gen_crab (rnd : nat -> R) (coeffs : option (list (list R))) (g : pgen) : Res (pgen * list flt) :=
  g <- match coeffs with
       | None => Ok g
       | Some c => if (1 <? length (concat c))%nat then Raise ValueError
                   else if (length (concat c) =? 0)%nat then Ok g
                   else Ok (g <| p_coeffs := Some c |>)
       end;;
  g <- ensure rnd g;;
  pulse <- match ncoef_of g with
           | 0 => Ok (repeat (F 0) (p_n g))
           | nc => t <- time_of g;; crab_sum g (range nc) t (repeat (F 0) (p_n g))
           end;;
  pulse <- match p_gfun g with Some f => apply_guess f (p_guess g) pulse | None => Ok pulse end;;
  pulse <- match p_ramp g with Some r => broadcast fmul pulse r | None => Ok pulse end;;
  Ok (g, crab_bounds g pulse).

Definition given {A} (o : option A) : bool := match o with Some _ => true | None => false end.

(** The [gen_pulse] methods of the standard classes up to the call of
    [_apply_bounds_and_offset] that ends each of them. *)

(** 303-310 (ZERO). *)
Definition gen_zero (g : pgen) : Res (pgen * list flt) := Ok (g, repeat (F 0) (p_n g)).

(** 323-332 (RND). *)
Definition gen_random (rnd : nat -> R) (g : pgen) : Res (pgen * list flt) :=
  Ok (g, map (fun i => F ((2 * rnd i - 1) * p_scale g)) (range (p_n g))).

(** 384-402 and 367-383 (RNDFOURIER); [fuel] bounds the while loop. *)
Definition fourier_pulse (fuel : nat) (rnd : nat -> R) (g : pgen) : Res (pgen * list flt) :=
  tau <- tau_of g AttributeError;;
  wl <- wavelens fuel (2 * p_T g) (p_minwl g);;
  t <- match wl with [] => Ok [] | _ => time_of g end;;
  s <- add_waves (fourier_waves rnd (p_scale g) wl) t (repeat (F 0) (length tau));;
  Ok (g, s).
Definition gen_fourier (fuel : nat) (rnd : nat -> R) (min_wavelen : option R) (g : pgen) : Res (pgen * list flt) :=
  let g := g <| p_minwl := or_keep min_wavelen (p_minwl g) |> in
  if Rltb (p_T g) (p_minwl g) then Raise ValueError else
  g <- ensure rnd g;; fourier_pulse fuel rnd g.

(** 482-498 and 452-481 (RNDWAVES). *)
Definition waves_pulse (rnd : nat -> R) (g : pgen) : Res (pgen * list flt) :=
  tau <- tau_of g AttributeError;;
  t <- match p_comp g with 0 => Ok [] | _ => time_of g end;;
  s <- add_waves (random_waves rnd (p_scale g) (p_minwl g) (p_maxwl g) (p_comp g)) t
                 (repeat (F 0) (length tau));;
  Ok (g, s).
Definition gen_waves (rnd : nat -> R) (num : option nat) (min_wavelen max_wavelen : option R) (g : pgen)
  : Res (pgen * list flt) :=
  let g := g <| p_comp := or_keep num (p_comp g) |> <| p_minwl := or_keep min_wavelen (p_minwl g) |>
             <| p_maxwl := or_keep max_wavelen (p_maxwl g) |> in
  if Rltb (p_T g) (p_minwl g) then Raise ValueError else
  if Rleb (p_maxwl g) (p_minwl g) then Raise ValueError else
  g <- ensure rnd g;; waves_pulse rnd g.

(** 527-546 (RNDWALK1). *)
Definition walk1_pulse (rnd : nat -> R) (g : pgen) : Res (pgen * list flt) :=
  tau <- tau_of g AttributeError;;
  Ok (g, walk1 rnd 1 (p_maxd g * p_scale g) (p_scale g * (rnd 0%nat * 2 - 1)) (length tau)).
Definition gen_walk1 (rnd : nat -> R) (d : option R) (g : pgen) : Res (pgen * list flt) :=
  let g := g <| p_maxd := or_keep d (p_maxd g) |> in
  g <- ensure rnd g;; walk1_pulse rnd g.

(** 576-602 (RNDWALK2). *)
Definition walk2_pulse (rnd : nat -> R) (g : pgen) : Res (pgen * list flt) :=
  tau <- tau_of g AttributeError;;
  Ok (g, walk2 rnd 1 (p_maxd2 g) 0 (p_scale g * (rnd 0%nat * 2 - 1)) (length tau)).
Definition gen_walk2 (rnd : nat -> R) (d : option R) (g : pgen) : Res (pgen * list flt) :=
  let g := g <| p_maxd2 := or_keep d (p_maxd2 g) |> in
  g <- ensure rnd g;; walk2_pulse rnd g.

(** 668-675 and 650-667 (LIN). *)
Definition linear_pulse (g : pgen) : Res (pgen * list flt) :=
  match p_n g with
  | 0 => Ok (g, [])
  | n =>
      match p_grad g, p_start g with
      | Some gr, Some st =>
          tau <- tau_of g TypeError;;
          p <- along (fun t => fmul (F (p_scale g)) (fadd (fmul gr (F t)) (F st))) 0 tau n;;
          Ok (g, p)
      | _, _ => Raise TypeError
      end
  end.
Definition gen_linear (rnd : nat -> R) (gradient start_val end_val : option R) (g : pgen) : Res (pgen * list flt) :=
  g <- (if given gradient || given start_val || given end_val
        then init_linear gradient start_val end_val g else Ok g);;
  g <- ensure rnd g;; linear_pulse g.

(** 749-773, 781-806, 814-839, 847-873 (SINE, SQUARE, SAW, TRIANGLE). *)
Definition periodic_pulse (g : pgen) : Res (pgen * list flt) :=
  match p_n g with
  | 0 => Ok (g, [])
  | n =>
      match p_freq g with
      | None => Raise TypeError
      | Some f =>
          tau <- tau_of g TypeError;;
          p <- along (fun t => F (p_scale g * periodic_value (p_cls g) f (p_phase g) t)) 0 tau n;;
          Ok (g, p)
      end
  end.
Definition gen_periodic (rnd : nat -> R) (nw w f ph : option R) (g : pgen) : Res (pgen * list flt) :=
  let g := g <| p_phase := or_keep ph (p_phase g) |> in
  g <- (if given nw || given w || given f then init_periodic nw w f ph g else Ok g);;
  g <- ensure rnd g;; periodic_pulse g.

(** 891-914 (GAUSSIAN). *)
Definition gauss_pulse (mean variance : option R) (g : pgen) : Res (pgen * list flt) :=
  t <- time_of g;;
  let tm := truthy mean (p_mean g) in
  let tv := truthy variance (p_var g) in
  Ok (g, map (fun x => fmul (F (p_scale g)) (fexp (fdiv (F (- (x - tm) ^ 2)) (F (2 * tv))))) t).
Definition gen_gauss (rnd : nat -> R) (mean variance : option R) (g : pgen) : Res (pgen * list flt) :=
  g <- ensure rnd g;; gauss_pulse mean variance g.

(** 940-960 (GAUSSIAN_EDGE). *)
Definition edge_pulse (decay_time : option R) (g : pgen) : Res (pgen * list flt) :=
  t <- time_of g;;
  let td := truthy decay_time (p_decay g) in
  Ok (g, map (fun x => fmul (fsub (fsub (F 1) (fexp (fdiv (F (- x ^ 2)) (F td))))
                                  (fexp (fdiv (F (- (x - p_T g) ^ 2)) (F td))))
                            (F (p_scale g))) t).
Definition gen_edge (rnd : nat -> R) (decay_time : option R) (g : pgen) : Res (pgen * list flt) :=
  g <- ensure rnd g;; edge_pulse decay_time g.

(** Which method runs.  An argument the method does not have is a TypeError. *)
Definition gen_raw (fuel : nat) (rnd : nat -> R) (ga : gargs) (g : pgen) : Res (pgen * list flt) :=
  match p_cls g, ga with
  | CZero, GNone => gen_zero g
  | CRnd, GNone => gen_random rnd g
  | CFourier, GNone => gen_fourier fuel rnd None g
  | CFourier, GFourier m => gen_fourier fuel rnd m g
  | CWaves, GNone => gen_waves rnd None None None g
  | CWaves, GWaves nw m x => gen_waves rnd nw m x g
  | CWalk1, GNone => gen_walk1 rnd None g
  | CWalk1, GWalk1 d => gen_walk1 rnd d g
  | CWalk2, GNone => gen_walk2 rnd None g
  | CWalk2, GWalk2 d => gen_walk2 rnd d g
  | CLin, GNone => gen_linear rnd None None None g
  | CLin, GLinear a b c => gen_linear rnd a b c g
  | (CSine | CSquare | CSaw | CTri), GNone => gen_periodic rnd None None None None g
  | (CSine | CSquare | CSaw | CTri), GPeriodic nw w f ph => gen_periodic rnd nw w f ph g
  | CGauss, GNone => gen_gauss rnd None None g
  | CGauss, GGauss m v => gen_gauss rnd m v g
  | CEdge, GNone => gen_edge rnd None g
  | CEdge, GEdge d => gen_edge rnd d g
  | _, _ => Raise TypeError
  end.

(** [gen_pulse] of every class. *)
Definition gen_pulse (fuel : nat) (rnd : nat -> R) (ga : gargs) (g : pgen) : Res (pgen * list flt) :=
  match p_cls g, ga with
  | CCrab, GNone => gen_crab rnd None g
  | CCrab, GCrab c => gen_crab rnd c g
  | CCrab, _ => Raise TypeError
  | _, _ =>
      '(g, p) <- gen_raw fuel rnd ga g;;
      p <- apply_bounds_and_offset g p;;
      Ok (g, p)
  end.

(** What can be done with a generator. *)
Inductive pop :=
| PSet (a : attr) | PApply (ps : list attr) | PInit (rnd : nat -> R) (ia : iargs)
| PGen (fuel : nat) (rnd : nat -> R) (ga : gargs) | PSetVars (v : list R) | PReset.
Definition pstep (o : pop) (g : pgen) : Res pgen :=
  match o with
  | PSet a => Ok (setattr g a)
  | PApply ps => Ok (apply_params ps g)
  | PInit rnd ia => init_pulse rnd ia g
  | PGen fuel rnd ga => '(g, _) <- gen_pulse fuel rnd ga g;; Ok g
  | PSetVars v => set_coeffs v g            (* 1124-1132 *)
  | PReset => Ok (reset g)
  end.
Fixpoint prun (ops : list pop) (g : pgen) : Res pgen :=
  match ops with [] => Ok g | o :: ops' => g <- pstep o g;; prun ops' g end.

(** 1115-1122 [get_optim_var_vals]. *)
Definition get_optim_var_vals (g : pgen) : Res (list R) :=
  match p_coeffs g with Some c => Ok (concat c) | None => Raise AttributeError end.
