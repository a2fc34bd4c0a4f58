(** Data dumping (src/qutip_qtrl/dump.py) and the host properties that control
    it (dynamics.py:472-521, optimizer.py:313-360, tslotcomp.py:134-155).

    Simplifications: text is [string], files are a map from paths to their
    text, opening a file for writing succeeds, [logger] output is dropped,
    [DUMP_DIR] and the outcome of [create_dir] (modelled in Model/Io.v) are
    parameters, and Python's number formatting is a parameter. *)
From Coq Require Import Reals DecimalString.
From RecordUpdate Require Import RecordUpdate.
From Verif.Model Require Import Base Str Dyn.
Local Open Scope string_scope.
Local Open Scope list_scope.

(** What can be assigned to [dumping] or [level]. *)
Inductive pyval := PStr (s : string) | PNone | POther.
Definition is_str (v : pyval) (w : string) : bool :=
  match v with PStr s => String.eqb s w | _ => false end.

(** An assignment leaves a new state, also when it raises. *)
Definition outcome (S : Type) := (S * option exn)%type.

(** ** The switches of OptimDump *)
Record osw := mkO {
  o_level : pyval;        (* _level *)
  o_summary : bool;       (* dump_summary *)
  o_fid_err : bool;       (* dump_fid_err *)
  o_grad_norm : bool;     (* dump_grad_norm *)
  o_grad : bool;          (* dump_grad *)
}.
#[export] Instance eta_osw : Settable _ := settable! mkO <o_level; o_summary; o_fid_err; o_grad_norm; o_grad>.

(** dump.py:279-287 [dump_any], [dump_all]. *)
Definition o_any (d : osw) : bool := o_fid_err d || o_grad_norm d || o_grad d.
Definition o_all (d : osw) : bool := o_fid_err d && o_grad_norm d && o_grad d.

(** dump.py:289-314 [_apply_level], always called with [level=None]. *)
Definition o_apply (d : osw) : outcome osw :=
  match o_level d with
  | PStr l =>
    let level := upper l in
    let level := if (level =? "CUSTOM")%string
                 then if is_str (o_level d) "CUSTOM" then level else "SUMMARY" else level in
    if (level =? "SUMMARY")%string
    then (d <| o_summary := true |> <| o_fid_err := false |> <| o_grad_norm := false |> <| o_grad := false |>, None)
    else if (level =? "FULL")%string
    then (d <| o_summary := true |> <| o_fid_err := true |> <| o_grad_norm := true |> <| o_grad := true |>, None)
    else (d, Some ValueError)
  | _ => (d, Some ValueError)
  end.

(** dump.py:113-141 [level]. *)
Definition o_get_level (d : osw) : string :=
  if o_summary d && negb (o_any d) then "SUMMARY"
  else if o_summary d && o_all d then "FULL" else "CUSTOM".
Definition o_set_level (v : pyval) (d : osw) : outcome osw := o_apply (d <| o_level := v |>).

(** dump.py:253-271 (constructor): [None] when it raises. [Dump.reset]
    (dump.py:86-99) sets [dump_summary]; the other switches are not attributes
    before [_apply_level]. *)
Definition o_new (level : string) : option osw :=
  match o_apply (mkO (PStr level) true false false false) with
  | (d, None) => Some d
  | (_, Some _) => None
  end.

(** optimizer.py:313-346 [dumping]. *)
Definition o_get_dumping (h : option osw) : string :=
  match h with None => "NONE" | Some d => o_get_level d end.
Definition o_set_dumping (v : pyval) (h : option osw) : outcome (option osw) :=
  match v with
  | PNone => (None, None)
  | POther => (h, Some TypeError)
  | PStr s =>
    let lvl := upper s in
    if (lvl =? "NONE")%string then (None, None)
    else match h with
         | None => match o_new lvl with Some d => (Some d, None) | None => (None, Some ValueError) end
         | Some d => let '(d', e) := o_set_level (PStr lvl) d in (Some d', e)
         end
  end.

(** ** The switches of DynamicsDump *)
Record dsw := mkD {
  ds_level : pyval;
  ds_summary : bool;      (* dump_summary *)
  ds_amps : bool;         (* dump_amps *)
  ds_dyn_gen : bool;      (* dump_dyn_gen *)
  ds_prop : bool;         (* dump_prop *)
  ds_prop_grad : bool;    (* dump_prop_grad *)
  ds_fwd : bool;          (* dump_fwd_evo *)
  ds_onwd : bool;         (* dump_onwd_evo *)
  ds_onto : bool;         (* dump_onto_evo *)
}.
#[export] Instance eta_dsw : Settable _ := settable! mkD
  <ds_level; ds_summary; ds_amps; ds_dyn_gen; ds_prop; ds_prop_grad; ds_fwd; ds_onwd; ds_onto>.

(** [dyn.fid_computer]: [None], or its [uses_onwd_evo] and [uses_onto_evo]. *)
Definition fidc := option (bool * bool).

(** dump.py:551-564 [dump_any]. *)
Definition d_any (d : dsw) : bool :=
  existsb (fun b => b) [ds_amps d; ds_dyn_gen d; ds_prop d; ds_prop_grad d; ds_fwd d; ds_onwd d; ds_onto d].
(** dump.py:566-580 [dump_all]: the list is built before [all] looks at it. *)
Definition d_all (f : fidc) (d : dsw) : Res bool :=
  match f with
  | None => Raise AttributeError
  | Some (onwd, onto) =>
    Ok (forallb (fun b => b) [ds_amps d; ds_dyn_gen d; ds_prop d; ds_prop_grad d; ds_fwd d;
                              Bool.eqb (ds_onwd d) onwd; Bool.eqb (ds_onto d) onto])
  end.

(** dump.py:582-617 [_apply_level]. *)
Definition d_apply (f : fidc) (d : dsw) : outcome dsw :=
  match ds_level d with
  | PStr l =>
    let level := upper l in
    let level := if (level =? "CUSTOM")%string
                 then if is_str (ds_level d) "CUSTOM" then level else "SUMMARY" else level in
    if (level =? "SUMMARY")%string
    then (d <| ds_summary := true |> <| ds_amps := false |> <| ds_dyn_gen := false |> <| ds_prop := false |>
            <| ds_prop_grad := false |> <| ds_fwd := false |> <| ds_onwd := false |> <| ds_onto := false |>, None)
    else if (level =? "FULL")%string
    then let d := d <| ds_summary := true |> <| ds_amps := true |> <| ds_dyn_gen := true |> <| ds_prop := true |>
                    <| ds_prop_grad := true |> <| ds_fwd := true |> in
         match f with
         | None => (d, Some AttributeError)
         | Some (onwd, onto) => (d <| ds_onwd := onwd |> <| ds_onto := onto |>, None)
         end
    else (d, Some ValueError)
  | _ => (d, Some ValueError)
  end.

(** dump.py:113-141 [level]. *)
Definition d_get_level (f : fidc) (d : dsw) : Res string :=
  if ds_summary d && negb (d_any d) then Ok "SUMMARY"
  else if ds_summary d then (b <- d_all f d;; Ok (if b then "FULL" else "CUSTOM")) else Ok "CUSTOM".
Definition d_set_level (f : fidc) (v : pyval) (d : dsw) : outcome dsw := d_apply f (d <| ds_level := v |>).

(** dump.py:531-545 (constructor). *)
Definition d_new (f : fidc) (level : string) : dsw + exn :=
  match d_apply f (mkD (PStr level) true false false false false false false false) with
  | (d, None) => inl d
  | (_, Some e) => inr e
  end.

(** dynamics.py:472-508 [dumping]. *)
Definition d_get_dumping (f : fidc) (h : option dsw) : Res string :=
  match h with None => Ok "NONE" | Some d => d_get_level f d end.
Definition d_set_dumping (f : fidc) (v : pyval) (h : option dsw) : outcome (option dsw) :=
  match v with
  | PNone => (None, None)
  | POther => (h, Some TypeError)
  | PStr s =>
    let lvl := upper s in
    if (lvl =? "NONE")%string then (None, None)
    else match h with
         | None => match d_new f lvl with inl d => (Some d, None) | inr e => (None, Some e) end
         | Some d => let '(d', e) := d_set_level f (PStr lvl) d in (Some d', e)
         end
  end.

(** ** Summary lines (dump.py:947-1008) *)
Definition nl : string := String (Ascii.ascii_of_nat 10) "".
Definition str_nat (n : nat) : string := NilEmpty.string_of_uint (Nat.to_uint n).

(** [format(a, str(w) + "s")]: left aligned, padded to [w]. *)
Fixpoint spaces (n : nat) : string := match n with 0 => "" | S k => String " " (spaces k) end.
Definition pad (w : nat) (a : string) : string := (a ++ spaces (w - String.length a))%string.
Definition min_col_width : nat := 11.
Definition col_width (name : string) : nat := Nat.max (String.length name) min_col_width.

(** [sep.join(l)]. *)
Fixpoint join (sep : string) (l : list string) : string :=
  match l with
  | [] => ""
  | [x] => x
  | x :: l' => (x ++ sep ++ join sep l')%string
  end.

(** A column: [summary_property_names], [.._fmt_type], [.._fmt_prec]. *)
Definition column := (string * string * nat)%type.

(** dump.py:962-974 [get_header_line]; the loop that adds [sep] before all but
    the first is [join]. *)
Definition header_line (cols : list column) (sep : string) : string :=
  if (sep =? " ")%string
  then join sep (map (fun c => pad (col_width (fst (fst c))) (fst (fst c))) cols)
  else join sep (map (fun c => fst (fst c)) cols).

(** Values of summary attributes; [F] are Python floats. *)
Inductive sval (F : Type) := SNone | SInt (n : nat) | SNum (x : F).
Arguments SNone {F}. Arguments SInt {F} n. Arguments SNum {F} x.

Section Text.
Context {F : Type}.
(** Python's [format(v, spec)] for the values above. *)
Variable fmt : sval F -> string -> string.
Definition attrs := string -> sval F.

(** dump.py:990-1000: the format specification of a column. *)
Definition spec (sep : string) (c : column) : string :=
  let '(name, ty, prec) := c in
  ((if (sep =? " ")%string then str_nat (col_width name) else "0")
   ++ (if (0 <? prec)%nat then "." ++ str_nat prec else "") ++ ty)%string.
Definition value_field (sep : string) (it : attrs) (c : column) : string :=
  match it (fst (fst c)) with
  | SNone => if (sep =? " ")%string then pad (col_width (fst (fst c))) "None" else "None"
  | v => fmt v (spec sep c)
  end.
(** dump.py:979-1008 [get_value_line]. *)
Definition value_line (cols : list column) (sep : string) (it : attrs) : string :=
  join sep (map (value_field sep it) cols).
End Text.

(** optimizer.py:1332-1345 (OptimIterSummary) and tslotcomp.py:702-731
    (EvoCompSummary). *)
Definition optim_cols : list column :=
  [("idx","d",0); ("iter_num","d",0); ("fid_func_call_num","d",0); ("grad_func_call_num","d",0);
   ("fid_err","g",4); ("grad_norm","g",4); ("wall_time","g",2)].
Definition evo_cols : list column :=
  [("idx","d",0); ("evo_dump_idx","d",0); ("iter_num","d",0); ("fid_func_call_num","d",0);
   ("grad_func_call_num","d",0); ("num_amps_changed","d",0); ("num_timeslots_changed","d",0);
   ("wall_time_dyn_gen_compute","g",3); ("wall_time_prop_compute","g",3);
   ("wall_time_fwd_prop_compute","g",3); ("wall_time_onwd_prop_compute","g",3)].
Definition set_attr {F} (a : string) (v : sval F) (it : attrs (F := F)) : attrs (F := F) :=
  fun x => if (x =? a)%string then v else it x.

(** ** Files *)
Definition files := string -> option string.
Definition put (p t : string) (fs : files) : files := fun q => if (q =? p)%string then Some t else fs q.
(** [open(p, "w"); write(t)] and [open(p, "a"); write(t)]. *)
Definition write (p t : string) (fs : files) : files := put p t fs.
Definition append (p t : string) (fs : files) : files :=
  put p (match fs p with Some u => (u ++ t)%string | None => t end) fs.

(** [os.path.join(dir, name)] (posix). *)
Fixpoint last_char (s : string) : option ascii :=
  match s with
  | "" => None
  | String c "" => Some c
  | String _ s' => last_char s'
  end.
Definition is_slash (o : option ascii) : bool := match o with Some c => Ascii.eqb c "/" | None => false end.
Definition path_join (dir name : string) : string :=
  if is_slash (String.get 0 name) then name
  else match dir with
       | "" => name
       | _ => if is_slash (last_char dir) then (dir ++ name)%string else (dir ++ "/" ++ name)%string
       end.

(** ** OptimDump: the logs (dump.py:262-488) *)
Section Logs.
Context {F : Type}.   (* Python floats *)
Context {G : Type}.   (* gradient arrays *)
Variable fmt : sval F -> string -> string.
Variable plain : F -> string.          (* "{}".format(x) *)
Variable savetxt1 : F -> string.       (* one line of np.savetxt, format "%.18e" *)
Variable savetxt : string -> G -> string. (* np.savetxt of an array with a delimiter *)
Notation attrs := (attrs (F := F)).

Record odump := mkOD {
  od_sw : osw;
  od_write : bool;                  (* write_to_file *)
  od_dir : string;                  (* dump_dir, created *)
  od_ext : string;                  (* dump_file_ext *)
  od_base : string;                 (* _fname_base *)
  od_sep : string;                  (* summary_sep *)
  od_dsep : string;                 (* data_sep *)
  od_sumfile : option string;       (* _summary_file_path *)
  od_errfile : option string;       (* _fid_err_file *)
  od_gnfile : option string;        (* _grad_norm_file *)
  od_iters : list attrs;            (* iter_summary *)
  od_errs : list F;                 (* fid_err_log *)
  od_gns : list F;                  (* grad_norm_log *)
  od_grads : list G;                (* grad_log *)
}.
#[export] Instance eta_od : Settable _ := settable! mkOD
  <od_sw; od_write; od_dir; od_ext; od_base; od_sep; od_dsep; od_sumfile; od_errfile; od_gnfile;
   od_iters; od_errs; od_gns; od_grads>.

(** dump.py:198-205 [summary_file], 340-347 [fid_err_file], 361-368
    [grad_norm_file]: the path is made up once and kept. *)
Definition file_name (d : odump) (what : string) : string :=
  path_join (od_dir d) (od_base d ++ "-" ++ what ++ "." ++ od_ext d)%string.
Definition summary_file (d : odump) : odump * string :=
  match od_sumfile d with
  | Some p => (d, p)
  | None => let p := file_name d "summary" in (d <| od_sumfile := Some p |>, p)
  end.
Definition fid_err_file (d : odump) : odump * string :=
  match od_errfile d with
  | Some p => (d, p)
  | None => let p := file_name d "fid_err_log" in (d <| od_errfile := Some p |>, p)
  end.
Definition grad_norm_file (d : odump) : odump * string :=
  match od_gnfile d with
  | Some p => (d, p)
  | None => let p := file_name d "grad_norm_log" in (d <| od_gnfile := Some p |>, p)
  end.
(** dump.py:386-389, 470-474: the file of the k-th gradient. *)
Definition grad_file (d : odump) (k : nat) : string :=
  file_name d ("fid_err_gradients" ++ str_nat k)%string.

(** What one item puts in the summary file (dump.py:325-336). *)
Definition head_text (cols : list column) (sep : string) (it : attrs) : string :=
  (header_line cols sep ++ nl ++ value_line fmt cols sep it ++ nl)%string.
Definition line_text (cols : list column) (sep : string) (it : attrs) : string :=
  (value_line fmt cols sep it ++ nl)%string.

(** dump.py:316-338 [add_iter_summary]; [it] is the optimiser's current
    iteration summary. *)
Definition add_iter_summary (it : attrs) (s : odump * files) : odump * files :=
  let '(d, fs) := s in
  let idx := length (od_iters d) in
  let it := set_attr "idx" (SInt idx) it in
  let d := d <| od_iters := od_iters d ++ [it] |> in
  if od_write d
  then let '(d, p) := summary_file d in
       (d, if (idx =? 0)%nat then write p (head_text optim_cols (od_sep d) it) fs
           else append p (line_text optim_cols (od_sep d) it) fs)
  else (d, fs).

(** dump.py:349-359 [update_fid_err_log]. *)
Definition update_fid_err_log (x : F) (s : odump * files) : odump * files :=
  let '(d, fs) := s in
  let d := d <| od_errs := od_errs d ++ [x] |> in
  if od_write d
  then let '(d, p) := fid_err_file d in
       (d, (if (length (od_errs d) =? 1)%nat then write else append) p (plain x ++ nl)%string fs)
  else (d, fs).
(** dump.py:370-380 [update_grad_norm_log]. *)
Definition update_grad_norm_log (x : F) (s : odump * files) : odump * files :=
  let '(d, fs) := s in
  let d := d <| od_gns := od_gns d ++ [x] |> in
  if od_write d
  then let '(d, p) := grad_norm_file d in
       (d, (if (length (od_gns d) =? 1)%nat then write else append) p (plain x ++ nl)%string fs)
  else (d, fs).
(** dump.py:382-390 [update_grad_log]. *)
Definition update_grad_log (g : G) (s : odump * files) : odump * files :=
  let '(d, fs) := s in
  let d := d <| od_grads := od_grads d ++ [g] |> in
  if od_write d
  then (d, write (grad_file d (length (od_grads d))) (savetxt (od_dsep d) g) fs)
  else (d, fs).

(** dump.py:273-277 [clear]. *)
Definition clear_log (s : odump * files) : odump * files :=
  let '(d, fs) := s in
  (d <| od_iters := [] |> <| od_errs := [] |> <| od_gns := [] |> <| od_grads := [] |>, fs).

(** dump.py:392-488 [writeout] with [f=None]. *)
Definition summary_text (cols : list column) (sep : string) (its : list attrs) : string :=
  fold_left (fun t it =>
    (t ++ (match it "idx"%string with SInt 0 => head_text cols sep it | _ => line_text cols sep it end))%string) its ""%string.
Fixpoint write_grads (d : odump) (k : nat) (gs : list G) (fs : files) : files :=
  match gs with
  | [] => fs
  | g :: gs' => write_grads d (S k) gs' (write (grad_file d (S k)) (savetxt (od_dsep d) g) fs)
  end.
Definition txt1 (l : list F) : string := fold_left (fun t x => (t ++ savetxt1 x ++ nl)%string) l ""%string.
Definition writeout (s : odump * files) : odump * files :=
  let '(d, fs) := s in
  let '(d, fs) := if o_summary (od_sw d)
                  then let '(d, p) := summary_file d in (d, write p (summary_text optim_cols (od_sep d) (od_iters d)) fs)
                  else (d, fs) in
  let '(d, fs) := if o_fid_err (od_sw d)
                  then let '(d, p) := fid_err_file d in (d, write p (txt1 (od_errs d)) fs) else (d, fs) in
  let '(d, fs) := if o_grad_norm (od_sw d)
                  then let '(d, p) := grad_norm_file d in (d, write p (txt1 (od_gns d)) fs) else (d, fs) in
  if o_grad (od_sw d) then (d, write_grads d 0 (od_grads d) fs) else (d, fs).

(** dump.py:191-196 [fname_base] setter. *)
Definition set_fname_base (b : string) (s : odump * files) : odump * files :=
  let '(d, fs) := s in (d <| od_base := b |> <| od_sumfile := None |>, fs).
(** Assigning [write_to_file]. *)
Definition set_write (b : bool) (s : odump * files) : odump * files :=
  let '(d, fs) := s in (d <| od_write := b |>, fs).

(** The calls on an OptimDump. *)
Inductive ocall :=
| AddIter (it : attrs) | LogErr (x : F) | LogNorm (x : F) | LogGrad (g : G) | Clear | Writeout.
Definition ostep (c : ocall) (s : odump * files) : odump * files :=
  match c with
  | AddIter it => add_iter_summary it s
  | LogErr x => update_fid_err_log x s
  | LogNorm x => update_grad_norm_log x s
  | LogGrad g => update_grad_log g s
  | Clear => clear_log s
  | Writeout => writeout s
  end.
Definition orun (cs : list ocall) (s : odump * files) : odump * files := fold_left (fun s c => ostep c s) cs s.
End Logs.
Arguments odump : clear implicits.
Arguments ocall : clear implicits.
