(** DynamicsDump and EvoCompDumpItem (src/qutip_qtrl/dump.py:491-944) and
    TimeslotComputer.dump_current (tslotcomp.py:134-155), on top of the model
    of Dynamics (Model/Dyn.v).  The simplifications of Model/Dump.v apply.
    Data files are kept as lists of what was written to them: text, the
    amplitude array, or an operator. *)
From Coq Require Import Reals.
From RecordUpdate Require Import RecordUpdate.
From Verif.Model Require Import Base Str Dyn Dump.
Local Open Scope string_scope.
Local Open Scope list_scope.

Section Evo.
Context {A : Alg} {F : Type}.
Notation attrs := (attrs (F := F)).
Variable fmt : sval F -> string -> string.

(** dump.py:757-780 EvoCompDumpItem. *)
Record item := mkItem {
  it_idx : nat;
  it_amps : option amps;            (* ctrl_amps *)
  it_dg : option (buf A);           (* dyn_gen *)
  it_prop : option (buf A);         (* prop *)
  it_pg : option (list (buf A));    (* prop_grad *)
  it_fwd : option (buf A);          (* fwd_evo *)
  it_onwd : option (buf A);         (* onwd_evo *)
  it_onto : option (buf A);         (* onto_evo *)
}.

(** One thing written to a file or stream. *)
Inductive tok := Txt (s : string) | TAmps (a : amps) | TOp (o : Op A).

(** dump.py:623-638: what [add_evo_dump] copies from the Dynamics object. *)
Definition capture (sw : dsw) (idx : nat) (d : dyn A) : item :=
  mkItem idx
    (if ds_amps sw then d_amps d else None)
    (if ds_dyn_gen sw then Some (d_dg d) else None)
    (if ds_prop sw then Some (d_prop d) else None)
    (if ds_prop_grad sw then d_pg d else None)
    (if ds_fwd sw then Some (d_fwd d) else None)
    (if ds_onwd sw then d_onwd d else None)
    (if ds_onto sw then d_onto d else None).

(** [np.savetxt(f, l[k])]: indexing [None] and writing a placeholder are
    TypeErrors. *)
Definition save_at (l : option (buf A)) (k : nat) : Res tok :=
  match l with
  | None => Raise TypeError
  | Some l => o <- get l k;; match o with Some o => Ok (TOp o) | None => Raise TypeError end
  end.

(** What was written, and the exception that ended it, if any. *)
Definition writing := (list tok * option exn)%type.
Definition and_then (w w' : writing) : writing :=
  match w with
  | (l, None) => (l ++ fst w', snd w')
  | (l, Some e) => (l, Some e)
  end.
Definition save (r : Res tok) : writing :=
  match r with Ok t => ([t], None) | Raise e => ([], Some e) end.

(** [k = 0; for dg in self.dyn_gen: f.write(label(k)); np.savetxt(f, x[k]);
    k += 1] (dump.py:832-839, 852-856, 892-896, 910-914, 928-934). *)
Fixpoint slots_from {X} (label : nat -> string) (x : option (buf A)) (k : nat) (gens : list X) : writing :=
  match gens with
  | [] => ([], None)
  | _ :: gens' => and_then ([Txt (label k)], None) (and_then (save (save_at x k)) (slots_from label x (S k) gens'))
  end.
Definition per_slot (label : nat -> string) (gens x : option (buf A)) : writing :=
  match gens with
  | None => ([], Some TypeError)
  | Some g => slots_from label x 0 g
  end.

(** dump.py:870-882: the propagator gradients. *)
Fixpoint row_from (k j : nat) (row : buf A) : writing :=
  match row with
  | [] => ([], None)
  | o :: row' =>
    and_then ([Txt ("Propagator gradient for timeslot " ++ str_nat k ++ " control " ++ str_nat j ++ nl)%string], None)
      (and_then (save (match o with Some o => Ok (TOp o) | None => Raise TypeError end)) (row_from k (S j) row'))
  end.
Fixpoint rows_from (k : nat) (rows : list (buf A)) : writing :=
  match rows with
  | [] => ([], None)
  | r :: rows' => and_then (row_from k 0 r) (rows_from (S k) rows')
  end.

(** dump.py:816-941: the sections, each with the name of its file, the heading
    it gets in a common file, and its contents. *)
Record sect := mkSect { sc_file : string; sc_head : string; sc_body : writing }.
Definition opt_sect {X} (o : option X) (file head : string) (body : X -> writing) : list sect :=
  match o with Some x => [mkSect file (head ++ nl)%string (body x)] | None => [] end.
Definition sections (i : item) : list sect :=
  opt_sect (it_amps i) "ctrl_amps" "Ctrl amps" (fun a => ([TAmps a], None)) ++
  opt_sect (it_dg i) "dyn_gen" "Dynamics Generators" (fun g =>
    per_slot (fun k => "dynamics generator for timeslot " ++ str_nat k ++ nl)%string (it_dg i) (Some g)) ++
  opt_sect (it_prop i) "prop" "Propagators" (fun p =>
    per_slot (fun k => "Propagator for timeslot " ++ str_nat k ++ nl)%string (it_dg i) (Some p)) ++
  opt_sect (it_pg i) "prop_grad" "Propagator gradients" (fun g => rows_from 0 g) ++
  opt_sect (it_fwd i) "fwd_evo" "Forward evolution" (fun x =>
    per_slot (fun k => "Evolution from 0 to " ++ str_nat k ++ nl)%string (it_dg i) (Some x)) ++
  opt_sect (it_onwd i) "onwd_evo" "Onward evolution" (fun _ =>
    per_slot (fun k => "Evolution from " ++ str_nat k ++ " to end" ++ nl)%string (it_dg i) (it_fwd i)) ++
  opt_sect (it_onto i) "onto_evo" "Onto evolution" (fun _ =>
    per_slot (fun k => "Evolution from " ++ str_nat k ++ " onto target" ++ nl)%string (it_dg i) (it_fwd i)).

(** dump.py:797-815: to one stream, with a heading for the item (or, when a
    file name is given, without), ... *)
Fixpoint stream_sections (l : list sect) : writing :=
  match l with
  | [] => ([], None)
  | s :: l' => and_then ([Txt (sc_head s)], None) (and_then (sc_body s) (stream_sections l'))
  end.
Definition writeout_stream (i : item) : writing :=
  and_then ([Txt ("EVOLUTION COMPUTATION " ++ str_nat (it_idx i) ++ nl)%string], None) (stream_sections (sections i)).
Definition writeout_file (i : item) : writing := stream_sections (sections i).

(** ... or, without argument, to one file per kind of operator. *)
Definition mfiles := string -> option (list tok).
Definition mwrite (p : string) (t : list tok) (fs : mfiles) : mfiles :=
  fun q => if (q =? p)%string then Some t else fs q.
Definition kind_file (dir base ext : string) (idx : nat) (kind : string) : string :=
  path_join dir (base ++ "-evo" ++ str_nat idx ++ "-" ++ kind ++ "." ++ ext)%string.
Fixpoint write_sections (name : string -> string) (l : list sect) (fs : mfiles) : outcome mfiles :=
  match l with
  | [] => (fs, None)
  | s :: l' =>
    let fs := mwrite (name (sc_file s)) (fst (sc_body s)) fs in
    match snd (sc_body s) with
    | Some e => (fs, Some e)
    | None => write_sections name l' fs
    end
  end.
Definition writeout_kinds (dir base ext : string) (i : item) (fs : mfiles) : outcome mfiles :=
  write_sections (kind_file dir base ext (it_idx i)) (sections i) fs.

(** ** DynamicsDump *)
Record ddump := mkDD {
  dd_sw : dsw;
  dd_write : bool;
  dd_dir : string;
  dd_ext : string;
  dd_base : string;
  dd_sep : string;
  dd_sumfile : option string;
  dd_items : list item;             (* evo_dumps *)
  dd_sums : list attrs;             (* evo_summary *)
}.
#[export] Instance eta_dd : Settable _ := settable! mkDD
  <dd_sw; dd_write; dd_dir; dd_ext; dd_base; dd_sep; dd_sumfile; dd_items; dd_sums>.

(** The object with the text files and the data files. *)
Record dstate := mkDS { s_dump : ddump; s_text : files; s_data : mfiles }.
#[export] Instance eta_dst : Settable _ := settable! mkDS <s_dump; s_text; s_data>.

Definition dsummary_file (d : ddump) : ddump * string :=
  match dd_sumfile d with
  | Some p => (d, p)
  | None => let p := path_join (dd_dir d) (dd_base d ++ "-summary." ++ dd_ext d)%string in
            (d <| dd_sumfile := Some p |>, p)
  end.

(** dump.py:619-642 [add_evo_dump]. *)
Definition add_evo_dump (d : dyn A) (s : dstate) : outcome dstate :=
  let dd := s_dump s in
  let i := capture (dd_sw dd) (length (dd_items dd)) d in
  let dd := dd <| dd_items := dd_items dd ++ [i] |> in
  let s := s <| s_dump := dd |> in
  if dd_write dd
  then let '(fs, e) := writeout_kinds (dd_dir dd) (dd_base dd) (dd_ext dd) i (s_data s) in
       (s <| s_data := fs |>, e)
  else (s, None).

(** dump.py:644-672 [add_evo_comp_summary]; [ecs] is the summary kept by the
    timeslot computer, [st] the numbers of iterations, function calls and
    gradient calls in the statistics, if there are any. *)
Definition add_evo_comp_summary (ecs : attrs) (st : option (nat * nat * nat)) (idx : sval F) (s : dstate) : dstate :=
  let dd := s_dump s in
  let n := length (dd_sums dd) in
  let it := set_attr "evo_dump_idx" idx (set_attr "idx" (SInt n) ecs) in
  let it := match st with
            | None => it
            | Some (a, b, c) =>
              set_attr "grad_func_call_num" (SInt c)
                (set_attr "fid_func_call_num" (SInt b) (set_attr "iter_num" (SInt a) it))
            end in
  let dd := dd <| dd_sums := dd_sums dd ++ [it] |> in
  if dd_write dd
  then let '(dd, p) := dsummary_file dd in
       mkDS dd (if (n =? 0)%nat then write p (head_text fmt evo_cols (dd_sep dd) it) (s_text s)
                else append p (line_text fmt evo_cols (dd_sep dd) it) (s_text s)) (s_data s)
  else s <| s_dump := dd |>.

(** tslotcomp.py:134-155 [dump_current]; the summary exists whenever there is a
    dump (tslotcomp.py:246-247). *)
Definition dump_current (d : dyn A) (ecs : attrs) (st : option (nat * nat * nat)) (s : dstate) : outcome dstate :=
  let '(s, idx, e) :=
    if d_any (dd_sw (s_dump s))
    then let n := length (dd_items (s_dump s)) in
         let '(s, e) := add_evo_dump d s in (s, SInt n, e)
    else (s, SNone, None) in
  match e with
  | Some e => (s, Some e)
  | None => if ds_summary (dd_sw (s_dump s)) then (add_evo_comp_summary ecs st idx s, None) else (s, None)
  end.

(** dump.py:547-549 [clear]. *)
Definition dclear (s : dstate) : dstate :=
  s <| s_dump := s_dump s <| dd_items := [] |> <| dd_sums := [] |> |>.

(** Calls: an evolution computed with the object in the given state, changing
    the switches, clearing. *)
Inductive dcall :=
| Evolved (d : dyn A) (ecs : attrs) (st : option (nat * nat * nat))
| Switches (sw : dsw)
| ClearDump.
Definition dstep (c : dcall) (s : dstate) : outcome dstate :=
  match c with
  | Evolved d ecs st => dump_current d ecs st s
  | Switches sw => (s <| s_dump := s_dump s <| dd_sw := sw |> |>, None)
  | ClearDump => (dclear s, None)
  end.
(** The caller goes on after an exception. *)
Definition drun (cs : list dcall) (s : dstate) : dstate := fold_left (fun s c => fst (dstep c s)) cs s.
End Evo.
Arguments item : clear implicits.
Arguments tok : clear implicits.
Arguments ddump : clear implicits.
Arguments dstate : clear implicits.
Arguments dcall : clear implicits.
