(** Parts of src/qutip_qtrl/dynamics.py around the computation itself: the
    checks of the operator containers, saving the amplitudes to a file, and the
    unitarity check. *)
From Coq Require Import Reals String Ascii.
From Coquelicot Require Import Coquelicot.
From RecordUpdate Require Import RecordUpdate.
From Verif.Lib Require Import Mat.
From Verif.Model Require Import Base Timeslots Str.
Local Open Scope nat_scope.

(** ** Containers of operators *)
Section Containers.
Variable Op : Type.

(** A value: an operator (Qobj) or something else that is no list. *)
Inductive value := Q (o : Op) | Other (n : nat).
(** An entry of a list of controls. *)
Inductive entry := EVal (v : value) | ERow (l : list value).
(** What a user may assign to ctrl_dyn_gen: a list or tuple, an array of two
    dimensions, an array of another number of dimensions, anything else. *)
Inductive container := PList (l : list entry) | PArr2 (rows : list (list value)) | PArrN | PElse.
(** What is worked with: a list, or an array of rows, one for each timeslot. *)
Inductive checked := Flat (l : list Op) | Rows (rows : list (list Op)).

Definition is_q (v : value) : Res Op := match v with Q o => Ok o | Other _ => Raise TypeError end.

(** What [a[i, :] = v] puts into a row of [w] places when [v] is no list: this
    depends on numpy and the class of [v]. *)
Variable assign_value : value -> nat -> Res (list value).
(** [a[i, :] = l]: a list of one value fills the row. *)
Definition assign_row (e : entry) (w : nat) : Res (list value) :=
  match e with
  | EVal v => assign_value v w
  | ERow l => if List.length l =? w then Ok l
              else match l with [v] => Ok (repeat v w) | _ => Raise ValueError end
  end.

(** dynamics.py:55-87 [_check_ctrls_container].  Rows of lists of lists are not
    modelled. *)
Definition check_ctrls_container (c : container) : Res checked :=
  c <- match c with
       | PList (ERow r0 :: rest) =>                                        (* 64-69 *)
         rows <- map_res (fun e => assign_row e (List.length r0)) (ERow r0 :: rest);; Ok (PArr2 rows)
       | _ => Ok c
       end;;
  match c with
  | PArrN => Raise TypeError                                               (* 74-75 *)
  | PArr2 rows => r <- map_res (map_res is_q) rows;; Ok (Rows r)           (* 76-79 *)
  | PList l => l <- map_res (fun e => match e with EVal v => is_q v | ERow _ => Raise TypeError end) l;;
               Ok (Flat l)                                                 (* 80-83 *)
  | PElse => Raise TypeError                                               (* 84-85 *)
  end.

(** dynamics.py:90-97 [_check_drift_dyn_gen]: a value, a list or tuple (of
    values), anything else. *)
Inductive drifts := DVal (v : value) | DSeq (l : list value) | DElse.
Definition check_drift_dyn_gen (d : drifts) : Res unit :=
  match d with
  | DVal (Q _) => Ok tt
  | DVal (Other _) | DElse => Raise TypeError
  | DSeq l => _ <- map_res is_q l;; Ok tt
  end.
End Containers.
Arguments Q {Op}. Arguments Other {Op}. Arguments EVal {Op}. Arguments ERow {Op}.
Arguments PList {Op}. Arguments PArr2 {Op}. Arguments PArrN {Op}. Arguments PElse {Op}.
Arguments Flat {Op}. Arguments Rows {Op}. Arguments DVal {Op}. Arguments DSeq {Op}. Arguments DElse {Op}.

(** ** Saving amplitudes *)
Section Save.
(** ["%14.6g" % x], and what happens when a file is written: all lines, or an
    exception with something else left in the file. *)
Variable fmt : R -> string.
Definition filesys := string -> option (list string).
Variable io : string -> list string -> option (list string) -> list string * bool.

Definition tabc : string := String (ascii_of_nat 9) EmptyString.
Fixpoint join (l : list string) : string :=
  match l with [] => EmptyString | [x] => x | x :: l' => (x ++ tabc ++ join l')%string end.
(** [np.savetxt(file_name, data, delimiter="\t", fmt="%14.6g")]. *)
Definition savetxt (name : string) (data : list (list R)) (fs : filesys) : filesys * bool :=
  let (content, ok) := io name (map (fun row => join (map fmt row)) data) (fs name) in
  (fun n => if String.eqb n name then Some content else fs n, ok).

(** The argument [times]: absent, text, or a list. *)
Inductive times_arg := TNone | TText (s : string) | TList (l : list R).
(** Amplitudes: an array of two dimensions, or of one. *)
Inductive amps_arg := A2 (a : list (list R)) | A1 (a : list R).

(** What of Dynamics is used here. *)
Record holder := mkHolder {
  h_init : bool;                 (* _ctrls_initialized *)
  h_slots : tslots;              (* num_tslots and time *)
  h_amps : amps_arg;             (* ctrl_amps *)
  h_fname : string;              (* def_amps_fname *)
}.

(** [data[:, 0] = times]: as many as there are rows, or one for all. *)
Definition column (times : list R) (n : nat) : Res (list R) :=
  if List.length times =? n then Ok times
  else match times with [t] => Ok (repeat t n) | _ => Raise ValueError end.

(** dynamics.py:997-998 [get_amp_times]: num_tslots initialises the slots when
    that has not been done; [time] has been read before that (an attribute
    that does not exist then, but controls are only initialised with slots). *)
Definition get_amp_times (d : holder) : list R :=
  match snd (get_num_tslots (h_slots d)) with
  | Some n => firstn n (ts_time (h_slots d))
  | None => ts_time (h_slots d)
  end.

(** dynamics.py:1000-1061 [save_amps]: the file system afterwards, whether an
    error was logged, or the exception.  [verbose] only logs. *)
Definition save_amps (d : holder) (file_name : option string) (times : times_arg) (amps : option amps_arg) (fs : filesys)
  : Res (filesys * bool) :=
  if negb (h_init d) then Raise UsageError else                              (* 989-995 *)
  let file_name := match file_name with None => h_fname d | Some n => n end in
  let amps := match amps with None => h_amps d | Some a => a end in
  let '(times, inctimes) :=
    match times with
    | TNone => (get_amp_times d, true)
    | TText s => if String.eqb (upper s) "EXCLUDE" then ([], false)          (* times.lower() == "exclude" *)
                 else (get_amp_times d, true)
    | TList l => (l, true)
    end in
  let data :=
    if inctimes then
      match amps with
      | A1 _ => Raise IndexError                                             (* shp[1] *)
      | A2 a => t <- column times (List.length a);;
                Ok (map (fun p => fst p :: snd p) (combine t a))
      end
    else Ok match amps with A2 a => a | A1 a => map (fun x => [x]) a end in
  match data with
  | Raise _ => Ok (fs, true)
  | Ok data => let (fs, ok) := savetxt file_name data fs in Ok (fs, negb ok)
  end.

(** pulseoptim.py:505-508 and 515-518 [optimize_pulse]: the amplitudes before
    and after the run, when out_file_ext is given. *)
Definition save_initial_final (ext : option string) (before after : holder) (fs : filesys) : Res (filesys * bool) :=
  match ext with
  | None => Ok (fs, false)
  | Some e =>
    '(fs, bad1) <- save_amps before (Some ("ctrl_amps_initial_" ++ e)%string) TNone None fs;;
    '(fs, bad2) <- save_amps after (Some ("ctrl_amps_final_" ++ e)%string) TNone None fs;;
    Ok (fs, bad1 || bad2)
  end.
End Save.

(** ** The unitarity check *)

(** [np.allclose(np.eye(len(A)), A.dot(A.T.conj()), atol=tol)]: the relative
    tolerance is 1e-5 times the second argument. *)
Definition rtol : R := (/ 100000)%R.
Definition close (tol : R) (x y : C) : bool :=
  if Rle_dec (Cmod (x - y)%C) (tol + rtol * Cmod y)%R then true else false.
(** dynamics.py:1464-1480 [_is_unitary]; the operator is square. *)
Definition is_unitary (tol : R) (A : mat) : bool :=
  let B := mmul A (mdag A) in
  forallb (fun i => forallb (fun j => close tol (ent (mid (nr A)) i j) (ent B i j)) (range (nr A))) (range (nr A)).
(** dynamics.py:1709-1713 for arrays; for Qobj [isherm] does the same. *)
Definition is_herm (atol : R) (H : mat) : bool :=
  forallb (fun i => forallb (fun j => if Rlt_dec (Cmod (Cconj (ent H j i) - ent H i j)%C) atol then true else false)
                            (range (nr H))) (range (nr H)).

(** A line logged: a warning for a slot, or the details for a slot. *)
Inductive line := Warning (k : nat) | Details (k : nat) (prop herm eigval eigvec : bool) (eigvecadj : option bool).
(** What is kept about the decomposition (None unless PropCompDiag). *)
Record decomp := mkDecomp { dc_eigen : list mat; dc_vec : list mat; dc_adj : option (list mat) }.

(** dynamics.py:1693-1732 [check_unitarity] of DynamicsUnitary, from slot [k]
    on, with the propagators and Hamiltonians of the slots. *)
Fixpoint check_unitarity (tol atol : R) (level : nat) (dec : option decomp) (k : nat) (slots : list (mat * mat))
  : list line * option exn :=
  match slots with
  | [] => ([], None)
  | (prop, H) :: slots' =>
    let u := is_unitary tol prop in
    let warn := if u then [] else [Warning k] in
    let details :=
      if negb u || (1 <? level) then
        match dec with
        | None => Raise TypeError                        (* self._prop_eigen[k] with None *)
        | Some dc =>
          e <- Base.get (dc_eigen dc) k;;
          v <- Base.get (dc_vec dc) k;;
          a <- match dc_adj dc with None => Ok None | Some l => a <- Base.get l k;; Ok (Some (is_unitary tol a)) end;;
          Ok [Details k u (is_herm atol H) (is_unitary tol e) (is_unitary tol v) a]
        end
      else Ok [] in
    match details with
    | Raise e => (warn, Some e)
    | Ok d => let (rest, e) := check_unitarity tol atol level dec (S k) slots' in (warn ++ d ++ rest, e)
    end
  end.

(** tslotcomp.py:348-349: at the end of a recomputation; only DynamicsUnitary
    has the method that is called. *)
Definition after_recompute (unitary : bool) (tol atol : R) (level : nat) (dec : option decomp) (slots : list (mat * mat))
  : list line * option exn :=
  if level =? 0 then ([], None)
  else if unitary then check_unitarity tol atol level dec 0 slots else ([], Some AttributeError).

(** dynamics.py:1490-1498 [unitarity_check], which any Dynamics has. *)
Definition unitarity_check (tol : R) (props : list mat) : list line :=
  flat_map (fun p => if is_unitary tol (snd p) then [] else [Warning (fst p)]) (combine (range (List.length props)) props).
