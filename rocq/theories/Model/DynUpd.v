(** TSlotCompDynUpdate (src/qutip_qtrl/tslotcomp.py:375-648), the timeslot
    computer that recomputes only what amplitude changes require, with the part
    of Dynamics it works on.

    Arrays of fixed length (the masks, the lists of operators) are functions
    from their index; every index used is in range while num_tslots does not
    change after init_comp, and changing it is not modelled.  The class calls
    two methods of Dynamics, compute_dyn_gen and _compute_propagator
    (tslotcomp.py:554, 569), which the present Dynamics does not have; they are
    parameters that may be missing.  evo_init2t and evo_t2targ are the
    (deprecated) names of _fwd_evo and _onto_evo (dynamics.py:1343-1346,
    1395-1398).  Wall times, logging and the fidelity computer's own flags are
    left out. *)
From Coq Require Import Reals.
From RecordUpdate Require Import RecordUpdate.
From Verif.Model Require Export Base Dyn Stats.
Local Open Scope nat_scope.

Section DynUpd.
Context {A : Alg}.
Notation Op := (Op A).

(** compute_dyn_gen(k), which depends on the amplitudes of slot k, and
    _compute_propagator(k), which depends on the generator of slot k; [None]
    when Dynamics has no such method. *)
Variable cgen : option (nat -> list R -> Res Op).
Variable cprop : option (nat -> Op -> Res Op).

Record du := mkU {
  u_n : nat;                        (* num_tslots *)
  u_amps : option amps;             (* ctrl_amps *)
  u_cur : bool;                     (* evo_current *)
  u_gen : nat -> option Op;         (* _dyn_gen *)
  u_prop : nat -> option Op;        (* _prop *)
  u_fwd : nat -> option Op;         (* _fwd_evo *)
  u_onto : nat -> option Op;        (* _onto_evo *)
  rg : nat -> bool;                 (* dyn_gen_recalc *)
  rp : nat -> bool;                 (* prop_recalc *)
  rf : nat -> bool;                 (* evo_init2t_recalc *)
  ro : nat -> bool;                 (* evo_t2targ_recalc *)
  ng : nat -> bool;                 (* dyn_gen_calc_now *)
  np : nat -> bool;                 (* prop_calc_now *)
  nf : nat -> bool;                 (* evo_init2t_calc_now *)
  no : nat -> bool;                 (* evo_t2targ_calc_now *)
  u_stats : option dstats;
}.
#[export] Instance eta_du : Settable _ := settable! mkU
  <u_n; u_amps; u_cur; u_gen; u_prop; u_fwd; u_onto; rg; rp; rf; ro; ng; np; nf; no; u_stats>.

(** [a[k] = v]. *)
Definition put {X} (k : nat) (v : X) (f : nat -> X) : nat -> X := fun i => if i =? k then v else f i.
(** [a.sum()] of a mask of length [n]. *)
Definition total (n : nat) (m : nat -> bool) : nat := count (map m (range n)).

(** tslotcomp.py:404-428 [init_comp], after _init_evo (dynamics.py:716-833)
    has made the lists of operators: placeholders but for the initial operator
    and the target. *)
Definition init_comp (n : nat) (initial targ : Op) (st : option dstats) : du :=
  mkU n None false
      (fun _ => None) (fun _ => None) (put 0 (Some initial) (fun _ => None)) (put n (Some targ) (fun _ => None))
      (fun _ => true) (fun _ => true) (put 0 false (fun _ => true)) (put n false (fun _ => true))
      (fun _ => false) (fun _ => false) (fun _ => false) (fun _ => false) st.

(** 456-463: the loop finding the first and the last changed slot. *)
Definition first_last (n : nat) (mask : nat -> bool) : option nat * nat :=
  fold_left (fun '(f, l) i => if mask i then (match f with None => Some i | Some _ => f end, i) else (f, l))
            (range n) (None, 0).

(** 430-486 [compare_amps], and the result: the amplitudes are unchanged.  A
    mask of the wrong length cannot be used as an index. *)
Definition compare (new_amps : amps) (s : du) : Res (du * bool) :=
  changed <- match u_amps s with
             | None => Ok (map (map (fun _ => true)) new_amps)
             | Some old => neq_amps old new_amps
             end;;
  let mask := map any changed in
  if any mask then
    if length mask =? u_n s then
      let m k := nth k mask false in
      let s := s <| rg := fun k => m k || rg s k |> <| rp := fun k => m k || rp s k |> <| u_amps := Some new_amps |> in
      match first_last (u_n s) m with
      | (None, _) => Raise TypeError
      | (Some first, last) =>
        let s := s <| rf := fun k => (first + 1 <=? k) || rf s k |> <| ro := fun k => (k <? last + 1) || ro s k |>
                   <| u_cur := false |> in
        let s := match u_stats s with
                 | None => s
                 | Some st => s <| u_stats := Some (st <| base; num_ctrl_amp_updates ::= S |>
                                                       <| base; num_ctrl_amp_changes ::= Nat.add (count (concat changed)) |>
                                                       <| base; num_timeslot_changes ::= Nat.add (count mask) |>) |>
                 end in
        Ok (s, false)
      end
    else Raise IndexError
  else Ok (s, true).

(** 488-497 [flag_all_calc_now]. *)
Definition flag_all (s : du) : du :=
  s <| ng := fun _ => true |> <| np := fun _ => true |>
    <| nf := fun k => (k <? u_n s) || nf s k |> <| no := fun k => (1 <=? k) || no s k |>.

(** 519-531: what else has to be computed first; the tests with np.any around
    the loops change nothing. *)
Definition back_closure (n : nat) (re now : nat -> bool) : nat -> bool :=
  fold_left (fun now k => if now k && re (k - 1) then put (k - 1) true now else now) (rev (seq 1 n)) now.
Definition fore_closure (n : nat) (re now : nat -> bool) : nat -> bool :=
  fold_left (fun now k => if now k && re (k + 1) then put (k + 1) true now else now) (range n) now.

(** A loop that an exception leaves, keeping what was done. *)
Fixpoint each (l : list nat) (body : nat -> du -> Res du) (s : du) : du * option exn :=
  match l with
  | [] => (s, None)
  | k :: l' => match body k s with Ok s' => each l' body s' | Raise e => (s, Some e) end
  end.

Definition call {X} (m : option X) : Res X := match m with Some f => Ok f | None => Raise AttributeError end.
(** 550-555, 565-570, 582-586 and 599-602: the bodies of the four loops. *)
Definition gen_body (now : nat -> bool) (k : nat) (s : du) : Res du :=
  if now k then
    f <- call cgen;;
    a <- some_or TypeError (u_amps s);;
    row <- get a k;;
    g <- f k row;;
    Ok (s <| u_gen := put k (Some g) (u_gen s) |> <| rg := put k false (rg s) |>)
  else Ok s.
Definition prop_body (now : nat -> bool) (k : nat) (s : du) : Res du :=
  if now k then
    f <- call cprop;;
    g <- filled (u_gen s k);;
    p <- f k g;;
    Ok (s <| u_prop := put k (Some p) (u_prop s) |> <| rp := put k false (rp s) |>)
  else Ok s.
Definition fwd_body (now : nat -> bool) (k : nat) (s : du) : Res du :=
  if now k then
    p <- filled (u_prop s (k - 1));;
    x <- filled (u_fwd s (k - 1));;
    Ok (s <| u_fwd := put k (Some (omul A p x)) (u_fwd s) |> <| rf := put k false (rf s) |>)
  else Ok s.
Definition onto_body (now : nat -> bool) (k : nat) (s : du) : Res du :=
  if now k then
    x <- filled (u_onto s (k + 1));;
    p <- filled (u_prop s k);;
    Ok (s <| u_onto := put k (Some (omul A x p)) (u_onto s) |> <| ro := put k false (ro s) |>)
  else Ok s.

Definition and_then (r : du * option exn) (f : du -> du * option exn) : du * option exn :=
  match r with (s, None) => f s | (s, Some e) => (s, Some e) end.
Definition count_in (f : dstats -> dstats) (s : du) : du := s <| u_stats := option_map f (u_stats s) |>.

(** 499-612 [recompute_evolution]; the counters are advanced after each loop
    (the tests with np.any again change nothing). *)
Definition recompute (s : du) : du * option exn :=
  let n := u_n s in
  let f_now := back_closure n (rf s) (fun k => nf s k && rf s k) in
  let o_now := fore_closure n (ro s) (fun k => no s k && ro s k) in
  let p_now k := (f_now (S k) || o_now k || np s k) && rp s k in
  let g_now k := (p_now k || ng s k) && rg s k in
  and_then (each (range n) (gen_body g_now) s) (fun s =>
  let s := count_in (fun st => st <| num_dyn_gen_computes ::= Nat.add (total n g_now) |>) s in
  and_then (each (range n) (prop_body p_now) s) (fun s =>
  let s := count_in (fun st => st <| num_prop_computes ::= Nat.add (total n p_now) |>) s in
  and_then (each (seq 1 n) (fwd_body f_now) s) (fun s =>
  let s := count_in (fun st => st <| num_fwd_prop_step_computes ::= Nat.add (total (S n) f_now) |>) s in
  and_then (each (range_down n) (onto_body o_now) s) (fun s =>
  let s := count_in (fun st => st <| num_onwd_prop_step_computes ::= Nat.add (total (S n) o_now) |>) s in
  (s <| ng := fun _ => false |> <| np := fun _ => false |> <| nf := fun _ => false |> <| no := fun _ => false |>, None))))).

(** 614-648 [get_timeslot_for_fidelity_calc]: the loop ends at the first slot
    with both evolutions current. *)
Fixpoint find_slot (s : du) (ks : list nat) (fwd : option nat) : option nat :=
  match ks with
  | [] => fwd
  | k :: ks' => if rf s k then find_slot s ks' fwd
                else if ro s k then find_slot s ks' (Some k) else Some k
  end.
Definition get_timeslot (s : du) : Res (du * nat) :=
  match find_slot s (range (u_n s)) None with
  | None => Raise FunctionalError
  | Some k => Ok (s <| nf := put k true (nf s) |> <| no := put k true (no s) |>, k)
  end.

(** dynamics.py:1420-1436 [compute_evolution]. *)
Definition compute_evo (s : du) : du * option exn :=
  if u_cur s then (s, None)
  else and_then (recompute s) (fun s => (s <| u_cur := true |>, None)).

(** The calls; one that raises leaves what it had done. *)
Inductive uop := Update (a : amps) | FlagAll | SlotForFidelity | Recompute | ComputeEvolution.
Definition ustep (o : uop) (s : du) : du :=
  match o with
  | Update a => match compare a s with Ok (s', _) => s' | Raise _ => s end
  | FlagAll => flag_all s
  | SlotForFidelity => match get_timeslot s with Ok (s', _) => s' | Raise _ => s end
  | Recompute => fst (recompute s)
  | ComputeEvolution => fst (compute_evo s)
  end.
Definition uruns (l : list uop) (s : du) : du := fold_left (fun s o => ustep o s) l s.
End DynUpd.
Arguments du : clear implicits.
