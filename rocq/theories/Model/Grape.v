(** Model of the simple GRAPE functions: src/qutip_qtrl/grape.py
    (grape_unitary, cy_grape_unitary, grape_unitary_adaptive) and
    src/qutip_qtrl/cy_grape.py.

    Operators are elements of an operator algebra [Alg] (see [Model/Dyn.v]);
    [one] is qeye(U.dims[0]) and [dim] the number of rows (A.shape[0]).
    Simplifications: floats are reals; Qobj and its data layer are not
    distinguished (so _overlap and cy_overlap are one function); warnings,
    progress bar and logging are left out; scipy's interp1d is a function
    argument [times values fill t]; ragged [u_start] lists are not modelled
    (np.array would reject them); H_t of the result is represented by the
    array of amplitudes it is built from. *)
From Coq Require Import Reals.
From Coquelicot Require Import Complex.
From Verif.Model Require Export Base Dyn.
Local Open Scope R_scope.

Definition pulse := list (list R).     (* J rows (controls) of M values *)

(** u_start: a list of rows, or a numpy array. *)
Inductive start := StartList (l : pulse) | StartArray (l : pulse).
Definition start_rows (s : start) : pulse := match s with StartList l | StartArray l => l end.
(** Python truth value: numpy refuses arrays of more than one element. *)
Definition start_truth (s : start) : Res bool :=
  match s with
  | StartList l => Ok (negb (length l =? 0)%nat)
  | StartArray l => match concat l with
                    | [] => Ok false
                    | [x] => Ok (neqR x 0)
                    | _ => Raise ValueError
                    end
  end.

Record gargs (Op : Type) := mkArgs {
  g_U : Op;                     (* target *)
  g_H0 : Op;
  g_H : list Op;                (* H_ops *)
  g_R : nat;
  g_times : list R;
  g_eps : option R;
  g_start : option start;       (* u_start *)
  g_limits : option (list R);   (* u_limits *)
  g_interp : option (list R -> list R -> R -> R -> R);   (* use_interp and interp1d *)
  g_alpha : option R;
  g_beta : option R;
  g_ps : bool;                  (* phase_sensitive *)
}.
Arguments g_U {Op}. Arguments g_H0 {Op}. Arguments g_H {Op}. Arguments g_R {Op}. Arguments g_times {Op}.
Arguments g_eps {Op}. Arguments g_start {Op}. Arguments g_limits {Op}. Arguments g_interp {Op}.
Arguments g_alpha {Op}. Arguments g_beta {Op}. Arguments g_ps {Op}. Arguments mkArgs {Op}.

Record gresult (Op : Type) := mkRes { o_u : list pulse; o_Uf : option Op; o_Ht : pulse }.
Arguments mkRes {Op}. Arguments o_u {Op}. Arguments o_Uf {Op}. Arguments o_Ht {Op}.

Definition zero_pulse (J M : nat) : pulse := repeat (repeat 0 M) J.
Definition get2 (u : pulse) (j m : nat) : Res R := row <- get u j;; get row m.
Definition set2 (u : pulse) (j m : nat) (v : R) : Res pulse :=
  row <- get u j;; row' <- set row m v;; set u j row'.

(** [if alpha:] for None or a number. *)
Definition truthy (x : option R) : bool := match x with None => false | Some v => neqR v 0 end.
Definition value (x : option R) : R := match x with None => 0 | Some v => v end.

(** u_limits (139-140, 338-339, 509-510): [None] and the empty list are false. *)
Definition read_limits (l : option (list R)) : Res (option (R * R)) :=
  match l with
  | None | Some [] => Ok None
  | Some [lo; hi] => Ok (Some (lo, hi))
  | Some _ => Raise ValueError
  end.

(** grape.py:145-149: values below the lower limit are replaced first. *)
Definition clip_start (lo hi x : R) : R :=
  let x := if ltR x lo then lo else x in if ltR hi x then hi else x.
(** grape.py:211-215, cy_grape.py:127-131. *)
Definition clip (lim : option (R * R)) (x : R) : R :=
  match lim with
  | None => x
  | Some (lo, hi) => if ltR x lo then lo else if ltR hi x then hi else x
  end.

(** grape.py:135, 145-153 (336, 344-348, 363-365): the first pulse. *)
Fixpoint copy_rows (M : nat) (rows : pulse) (idx : nat) (u : pulse) : Res pulse :=
  match rows with
  | [] => Ok u
  | r :: rows =>
    row <- (if (length r =? M)%nat then Ok r
            else match r with [x] => Ok (repeat x M) | _ => Raise ValueError end);;
    u <- set u idx row;;
    copy_rows M rows (S idx) u
  end.
Definition first_pulse (J M : nat) (lim : option (R * R)) (st : option start) : Res pulse :=
  match st with
  | None => Ok (zero_pulse J M)
  | Some s =>
    rows <- match lim with
            | None => Ok (start_rows s)
            | Some (lo, hi) =>
              b <- start_truth s;;
              Ok (if b : bool then map (map (clip_start lo hi)) (start_rows s) else start_rows s)
            end;;
    copy_rows M rows 0 (zero_pulse J M)
  end.

Section Grape.
Context {A : Alg} (one : Op A) (dim : nat).
Notation Op := (Op A).
Notation omul := (omul A).

(** grape.py:92-93 [_overlap], cy_grape.py:6-22 [cy_overlap]. *)
Definition goverlap (a b : Op) : C := Cdiv (otr A (omul (odag A a) b)) (RtoC (INR dim)).

(** grape.py:128-129: the default step size. *)
Definition step_size (g : gargs Op) : Res R :=
  match g_eps g with
  | Some e => Ok e
  | None => t <- get (g_times g) (length (g_times g) - 1);; Ok (1/10 * (2 * PI) / t)
  end.
(** grape.py:161. *)
Definition time_step (g : gargs Op) : Res R :=
  t1 <- get (g_times g) 1;; t0 <- get (g_times g) 0;; Ok (t1 - t0).

(** H0 + sum([c_j * H_j]) (grape.py:183); [sum] starts from 0, which an
    operator absorbs. *)
Definition hsum (l : list Op) : option Op :=
  match l with [] => None | x :: l => Some (fold_left (oadd A) l x) end.
Definition hamiltonian (H0 : Op) (cs : list R) (Hs : list Op) : Op :=
  match hsum (map (fun '(c, h) => oscale A (RtoC c) h) (combine cs Hs)) with
  | None => H0
  | Some x => oadd A H0 x
  end.
(** Amplitude of a control at grid point [idx] (163-183): the stored value, or
    the interpolated one. *)
Definition amp_at (g : gargs Op) (row : list R) (idx : nat) : Res R :=
  match g_interp g with
  | None => get row idx
  | Some ip => t <- get (g_times g) idx;; l <- get row (length row - 1);; Ok (ip (g_times g) row l t)
  end.
(** grape.py:163-185 [U_list]. *)
Definition slot_unitaries (g : gargs Op) (M : nat) (dt : R) (u : pulse) : Res (list Op) :=
  map_res (fun idx =>
      cs <- map_res (fun row => amp_at g row idx) u;;
      Ok (oexpm A (oscale A (RtoC dt) (oscale A (- Ci)%C (hamiltonian (g_H0 g) cs (g_H g))))))
    (range (M - 1)).

(** grape.py:187-196: forward and backward products. *)
Definition fb_lists (M : nat) (Us : list Op) : Res (list Op * list Op) :=
  '(_, fl, _, bl) <- for_each (range (M - 1))
    (fun n '(uf, fl, ub, bl) =>
       un <- get Us n;;
       let uf := omul un uf in
       uk <- get Us (M - 2 - n);;
       Ok (uf, fl ++ [uf], omul (odag A uk) ub, ub :: bl))
    (one, [], one, []);;
  Ok (fl, bl).

(** grape.py:200-206, cy_grape.py:107-114 (and 602-615): du without penalties. *)
Definition direction (ps : bool) (U H : Op) (dt : R) (uf ub : Op) : C :=
  let P := omul ub U in
  let Q := omul (oscale A (RtoC dt * Ci)%C H) uf in
  if ps then Copp (goverlap P Q) else (- RtoC 2 * goverlap P Q * goverlap uf P)%C.

(** grape.py:208-214: python penalties (linear in m). *)
Definition penal_py (al be : option R) (m : nat) (x dt : R) (du : C) : C :=
  let du := if truthy al then (du + RtoC (-2 * value al * x * dt))%C else du in
  if truthy be then (du + RtoC (-2 * value be * INR m * x * dt))%C else du.
(** cy_grape.py:116-122: quadratic in m, positive alpha only. *)
Definition penal_cy (al be : R) (m : nat) (x dt : R) (du : C) : C :=
  let du := if ltR 0 al then (du + RtoC (-2 * al * x * dt))%C else du in
  if neqR be 0 then (du + RtoC (-2 * be * INR m ^ 2 * x * dt))%C else du.

(** grape.py:198-224: one update, j outside and m inside.  [u[r+1,j,-1]] and
    [u[r+1,j,-2]] are columns M-1 and M-2: M >= 2, since times[1] was read. *)
Definition update_py (g : gargs Op) (M J : nat) (lim : option (R * R)) (dt eps : R) (fl bl : list Op) (u : pulse) : Res pulse :=
  for_each (range J)
    (fun j v =>
       v <- for_each (range (M - 1))
         (fun m v =>
            ub <- get bl m;; uf <- get fl m;; h <- get (g_H g) j;; x <- get2 u j m;;
            let du := penal_py (g_alpha g) (g_beta g) m x dt (direction (g_ps g) (g_U g) h dt uf ub) in
            set2 v j m (clip lim (x + eps * Re du))) v;;
       l <- get2 v j (M - 2);;
       set2 v j (M - 1) l)
    (zero_pulse J M).

(** cy_grape.py:104-135: m outside and j inside, last column afterwards. *)
Definition update_cy (g : gargs Op) (M J : nat) (lim : option (R * R)) (dt eps : R) (fl bl : list Op) (u : pulse) : Res pulse :=
  v <- for_each (range (M - 1))
    (fun m v =>
       ub <- get bl m;;
       for_each (range J)
         (fun j v =>
            uf <- get fl m;; h <- get (g_H g) j;; x <- get2 u j m;;
            let du := penal_cy (if truthy (g_alpha g) then value (g_alpha g) else 0)
                               (if truthy (g_beta g) then value (g_beta g) else 0)
                               m x dt (direction (g_ps g) (g_U g) h dt uf ub) in
            set2 v j m (clip lim (x + eps * Re du))) v)
    (zero_pulse J M);;
  for_each (range J)
    (fun j v =>
       l <- get2 v j (M - 2);;
       set2 v j (M - 1) l) v.

(** grape.py:96-266 [grape_unitary] and 269-448 [cy_grape_unitary]. *)
Definition grape_run (update : gargs Op -> nat -> nat -> option (R * R) -> R -> R -> list Op -> list Op -> pulse -> Res pulse)
    (g : gargs Op) : Res (gresult Op) :=
  eps <- step_size g;;
  let M := length (g_times g) in
  let J := length (g_H g) in
  lim <- read_limits (g_limits g);;
  u0 <- first_pulse J M lim (g_start g);;
  u <- match g_R g with
       | O => match g_start g with      (* u[0, idx, :] on an empty array *)
              | Some s => if (length (start_rows s) =? 0)%nat then Ok [] else Raise IndexError
              | None => Ok []
              end
       | S _ => Ok (u0 :: repeat (zero_pulse J M) (g_R g - 1))
       end;;
  '(u, last) <- for_each (range (g_R g - 1))
    (fun r '(u, _) =>
       dt <- time_step g;;
       ur <- get u r;;
       Us <- slot_unitaries g M dt ur;;
       '(fl, bl) <- fb_lists M Us;;
       v <- update g M J lim dt eps fl bl ur;;
       u <- set u (r + 1) v;;
       Ok (u, Some fl))
    (u, None);;
  ht <- (if (J =? 0)%nat then Ok [] else get u (g_R g - 1));;
  match last with
  | None => Raise UnboundLocalError     (* U_f_list, R = 0 or 1 *)
  | Some fl => uf <- get fl (length fl - 1);; Ok (mkRes u (Some uf) ht)
  end.
Definition grape_unitary : gargs Op -> Res (gresult Op) := grape_run update_py.
Definition cy_grape_unitary : gargs Op -> Res (gresult Op) := grape_run update_cy.

(** ** Adaptive step sizes, grape.py:451-716. *)

(** np.argmax: the first position of the largest value. *)
Fixpoint argmax_from (best : nat) (bv : R) (k : nat) (l : list R) : nat :=
  match l with
  | [] => best
  | x :: l => if ltR bv x then argmax_from k x (S k) l else argmax_from best bv (S k) l
  end.
Definition argmax (l : list R) : nat := match l with [] => O | x :: l => argmax_from 0 x 1 l end.

(** [_fidelity_function] (538-546) followed by [.real] (650-652). *)
Definition fidelity (ps : bool) (z : C) : R := if ps then Re z else Cmod z ^ 2.

(** State of the loop; [a_u] holds u[r, :, :, k] as [r][k][j][m]. *)
Record ast := mkAst {
  a_u : list (list pulse);
  a_best : nat;                   (* best_k *)
  a_eps : list R;                 (* eps_vec *)
  a_prev : R;                     (* _prev_overlap *)
  a_Uf : list (option Op);
  a_r : nat;                      (* _r *)
  a_olog : list R;                (* overlap_log *)
  a_elog : list R;                (* eps_log *)
  a_stop : bool;                  (* left by [break] *)
}.

(** 600-634: one update of the K pulses.  With [beta] the penalty term (619)
    reads the loop variable [k]: unbound unless u_start had a row; otherwise 2,
    so [u[r, j, 2]] is an array (IndexError when M < 3) that cannot be stored
    in an element. *)
Definition update_ad (g : gargs Op) (M J : nat) (lim : option (R * R)) (dt : R) (eps_vec : list R) (best : nat)
    (fl bl : list Op) (u : list pulse) : Res (list pulse) :=
  for_each (range J)
    (fun j v =>
       v <- for_each (range (M - 1))
         (fun m v =>
            ub <- get bl m;; uf <- get fl m;; h <- get (g_H g) j;;
            let du := direction (g_ps g) (g_U g) h dt uf ub in
            best_u <- get u best;; xb <- get2 best_u j m;;
            let du := if truthy (g_alpha g) then (du + RtoC (-2 * value (g_alpha g) * xb * dt))%C else du in
            _ <- (if truthy (g_beta g) then
                    match g_start g with
                    | Some s => if (length (start_rows s) =? 0)%nat then Raise UnboundLocalError
                                else if (M <? 3)%nat then Raise IndexError else Raise ValueError
                    | None => Raise UnboundLocalError
                    end
                  else Ok tt);;
            for_each (range 3)
              (fun k v => e <- get eps_vec k;; uk <- get u k;; x <- get2 uk j m;;
                          vk <- get v k;; vk <- set2 vk j m (clip lim (x + e * Re du));; set v k vk) v) v;;
       for_each (range 3)
         (fun k v => vk <- get v k;; l <- get2 vk j (M - 2);; vk <- set2 vk j (M - 1) l;; set v k vk) v)
    (repeat (zero_pulse J M) 3).

(** 639-648: final unitary of one pulse (without interpolation). *)
Definition final_unitary (g : gargs Op) (M : nat) (dt : R) (u : pulse) : Res Op :=
  Us <- slot_unitaries (mkArgs (g_U g) (g_H0 g) (g_H g) (g_R g) (g_times g) (g_eps g) (g_start g) (g_limits g)
                               None (g_alpha g) (g_beta g) (g_ps g)) M dt u;;
  for_each (range (M - 1)) (fun m uf => um <- get Us m;; Ok (omul um uf)) one.

Definition halve (l : list R) : list R := map (fun e => e / 2) l.
Definition double (l : list R) : list R := map (fun e => e * 2) l.

(** 552-690: the loop body. *)
Definition adapt_step (g : gargs Op) (M J : nat) (lim : option (R * R)) (terminate : R) (r : nat) (s : ast) : Res ast :=
  if a_stop s then Ok s else
  e <- get (a_eps s) (a_best s);;
  elog <- set (a_elog s) r e;;
  dt <- time_step g;;
  ur <- get (a_u s) r;;
  ub <- get ur (a_best s);;
  Us <- slot_unitaries g M dt ub;;
  '(fl, bl) <- fb_lists M Us;;
  v <- update_ad g M J lim dt (a_eps s) (a_best s) fl bl ur;;
  u <- set (a_u s) (r + 1) v;;
  Uf <- map_res (fun vk => final_unitary g M dt vk) v;;
  let ov := map (fun w => fidelity (g_ps g) (goverlap w (g_U g))) Uf in
  let best := argmax ov in
  o <- get ov best;;
  '(u, eps, prev) <-
    (if ltR o (a_prev s) then
       u <- set u (r + 1) ur;; Ok (u, halve (a_eps s), a_prev s)
     else
       Ok (u, (if (best =? 0)%nat then halve (a_eps s) else if (best =? 2)%nat then double (a_eps s) else a_eps s), o));;
  olog <- set (a_olog s) r o;;
  Ok (mkAst u best eps prev (map Some Uf) r olog elog (ltR terminate 1 && ltR terminate o)).

Record aresult := mkAres { ar_u : list pulse; ar_Uf : option Op; ar_Ht : pulse; ar_eps : list R; ar_overlap : list R }.

(** 500-555: before the loop. *)
Definition adapt_start (g : gargs Op) (e : R) (u0 : pulse) : Res ast :=
  let M := length (g_times g) in
  let J := length (g_H g) in
  u <- match g_R g with
       | O => match g_start g with
              | Some s => if (length (start_rows s) =? 0)%nat then Ok [] else Raise IndexError
              | None => Ok []
              end
       | S _ => Ok (repeat u0 3 :: repeat (repeat (zero_pulse J M) 3) (g_R g - 1))
       end;;
  Ok (mkAst u 1 [e / 2; e; 2 * e] 0 (repeat None 3) 0 (repeat 0 (g_R g)) (repeat 0 (g_R g)) false).

(** 692-716: the result.  With use_interp scipy's interp1d is given a fill
    value of shape (3,) for a one-dimensional curve, a ValueError. *)
Definition adapt_result (g : gargs Op) (s : ast) : Res aresult :=
  ht <- (if (length (g_H g) =? 0)%nat then Ok []
         else match g_interp g with
              | Some _ => Raise ValueError
              | None => ur <- get (a_u s) (a_r s);; get ur (a_best s)
              end);;
  us <- map_res (fun ur => get ur (a_best s)) (firstn (a_r s) (a_u s));;
  uf <- get (a_Uf s) (a_best s);;
  Ok (mkAres us uf ht (a_elog s) (a_olog s)).

Definition grape_unitary_adaptive (terminate : R) (g : gargs Op) : Res aresult :=
  e <- step_size g;;
  let M := length (g_times g) in
  let J := length (g_H g) in
  lim <- read_limits (g_limits g);;
  u0 <- first_pulse J M lim (g_start g);;
  s <- adapt_start g e u0;;
  s <- for_each (range (g_R g - 1)) (adapt_step g M J lim terminate) s;;
  adapt_result g s.
End Grape.
