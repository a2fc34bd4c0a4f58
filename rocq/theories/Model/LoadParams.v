(** Model of src/qutip_qtrl/loadparams.py: reading attribute values from an
    ini file.

    ConfigParser is modelled as far as it matters: option names are made lower
    case, a name given twice in a section is refused, the [DEFAULT] section is
    seen through every other section.  Reading a value may fail (a stray '%').
    Objects are maps from attribute names to values; assigning to a read-only
    property raises.  Setters with further effects (for example num_tslots)
    and objects passed twice are not modelled.  Python's eval, float(), int()
    and complex() on text are external. *)
From Coq Require Import Reals.
From Coquelicot Require Import Complex.
From Verif.Model Require Export Base Str.

Inductive pyval :=
| VFloat (x : R) | VInt (z : Z) | VBool (b : bool) | VComplex (c : C) | VStr (s : string) | VNone
| VList (l : list pyval) | VArr (dtype : nat) (l : list pyval) | VQobj (l : list pyval)
| VOther (kind : nat).

(** Python's [str.lower] on ASCII text (ConfigParser.optionxform). *)
Definition lower_char (c : ascii) : ascii :=
  let n := nat_of_ascii c in
  if (65 <=? n) && (n <=? 90) then ascii_of_nat (n + 32) else c.
Fixpoint lower (s : string) : string :=
  match s with
  | EmptyString => EmptyString
  | String c t => String (lower_char c) (lower t)
  end.

(** An object: its attributes and which of them cannot be assigned. *)
Record obj := mkObj { attrs : string -> option pyval; readonly : string -> bool }.
Definition setattr (o : obj) (a : string) (v : pyval) : Res obj :=
  if readonly o a then Raise AttributeError
  else Ok (mkObj (fun x => if String.eqb x a then Some v else attrs o x) (readonly o)).

(** A file: the sections with the options as written; reading a value may
    raise.  A missing file is [None]. *)
Definition section := list (string * Res string).
Definition file := list (string * section).

Definition lower_names (s : section) : section := map (fun '(n, v) => (lower n, v)) s.
Fixpoint lookup {X} (k : string) (l : list (string * X)) : option X :=
  match l with
  | [] => None
  | (n, v) :: t => if String.eqb n k then Some v else lookup k t
  end.
Fixpoint has_dup (l : list string) : bool :=
  match l with
  | [] => false
  | x :: t => existsb (String.eqb x) t || has_dup t
  end.

(** ConfigParser.read: duplicate sections or options are errors (RuntimeError
    stands for configparser.Error). *)
Definition read_file (f : file) : Res file :=
  let g := map (fun '(n, s) => (n, lower_names s)) f in
  if has_dup (map fst g) || existsb (fun '(_, s) => has_dup (map fst s)) g then Raise RuntimeError else Ok g.

Definition DEFAULT : string := "DEFAULT".
(** ConfigParser.options / get: the section's own options, then those of
    [DEFAULT] it does not have; [None] is NoSectionError. *)
Definition options (f : file) (s : string) : option section :=
  if String.eqb s DEFAULT then None
  else match lookup s f with
       | None => None
       | Some own =>
         let d := match lookup DEFAULT f with Some d => d | None => [] end in
         Some (own ++ filter (fun '(n, _) => match lookup n own with None => true | Some _ => false end) d)
       end.

(** ConfigParser.getboolean. *)
Definition to_bool (s : string) : option bool :=
  let l := lower s in
  if existsb (String.eqb l) ["1"; "yes"; "true"; "on"]%string then Some true
  else if existsb (String.eqb l) ["0"; "no"; "false"; "off"]%string then Some false
  else None.

Section LoadParams.
Variable py_eval : string -> Res pyval.
Variable to_float : string -> option R.
Variable to_int : string -> option Z.
Variable to_complex : string -> option C.
(** list(v), np.array(v, dtype), Qobj(v). *)
Variable as_list : pyval -> Res (list pyval).
Variable as_array : nat -> pyval -> Res (list pyval).
Variable as_qobj : pyval -> Res (list pyval).

Definition or_value_error {X} (m : Res X) : Res X :=
  match m with Ok x => Ok x | Raise _ => Raise ValueError end.
Definition of_opt {X} (o : option X) : Res X :=
  match o with Some x => Ok x | None => Raise ValueError end.

(** loadparams.py:153-230: the new value, by the type of the present one. *)
Definition convert (old : pyval) (val : string) : Res pyval :=
  match old with
  | VQobj _ => or_value_error (x <- py_eval val;; q <- as_qobj x;; Ok (VQobj q))          (* 153-161 *)
  | VArr dt _ => or_value_error (x <- py_eval val;; l <- as_array dt x;; Ok (VArr dt l))  (* 162-170 *)
  | VList _ => or_value_error (x <- py_eval val;; l <- as_list x;; Ok (VList l))          (* 171-179 *)
  | VFloat _ =>                                                                           (* 180-193 *)
    match to_float val with
    | Some x => Ok (VFloat x)
    | None => or_value_error (py_eval val)
    end
  | VComplex _ => c <- of_opt (to_complex val);; Ok (VComplex c)                          (* 194-202 *)
  | VInt _ => z <- of_opt (to_int val);; Ok (VInt z)                                      (* 203-211 *)
  | VBool _ => b <- of_opt (to_bool val);; Ok (VBool b)                                   (* 212-220 *)
  | VStr _ | VNone | VOther _ =>                                                          (* 221-230 *)
    match to_float val with
    | Some x => Ok (VFloat x)
    | None => match to_bool val with
              | Some b => Ok (VBool b)
              | None => Ok (VStr val)
              end
    end
  end.

(** loadparams.py:131-230 [set_param]. *)
Definition set_param (value : Res string) (name : string) (o : obj) : Res obj :=
  val <- value;;
  match attrs o name with
  | None => Ok o
  | Some old => v <- convert old val;; setattr o name v
  end.

(** The loop over a section and its [except] (47-56 and its five copies): the
    object keeps what was set before the error. *)
Fixpoint load_options (opts : section) (o : obj) : obj :=
  match opts with
  | [] => o
  | (n, v) :: t => match set_param v n o with Ok o' => load_options t o' | Raise _ => o end
  end.
Definition load_section (f : file) (s : string) (o : obj) : obj :=
  match options f s with None => o | Some l => load_options l o end.

(** The objects that may be passed. *)
Record targets := mkTargets {
  t_config : option obj; t_term_conds : option obj; t_dynamics : option obj;
  t_optim : option obj; t_pulsegen : option obj; t_obj : option obj }.

(** loadparams.py:27-128 [load_parameters]: the objects afterwards and the
    exception raised, if any.  [name] is the argument [section], [None] when
    it is not a string. *)
Definition load_parameters (f : option file) (t : targets) (name : option string) : targets * option exn :=
  match f with
  | None => (t, Some ValueError)
  | Some f =>
    match read_file f with
    | Raise e => (t, Some e)
    | Ok f =>
      let t := mkTargets (option_map (load_section f "optimconfig") (t_config t))
                         (option_map (load_section f "termconds") (t_term_conds t))
                         (option_map (load_section f "dynamics") (t_dynamics t))
                         (option_map (load_section f "optimizer") (t_optim t))
                         (option_map (load_section f "pulsegen") (t_pulsegen t))
                         (t_obj t) in
      match t_obj t with
      | None => (t, None)
      | Some o =>
        match name with
        | None => (t, Some ValueError)
        | Some s => (mkTargets (t_config t) (t_term_conds t) (t_dynamics t) (t_optim t) (t_pulsegen t)
                               (Some (load_section f s o)), None)
        end
      end
    end
  end.
End LoadParams.
