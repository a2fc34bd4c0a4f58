(** Python values as far as option handling looks at them, and dictionaries.
    Nothing here models a particular line of /repo. *)
From Coq Require Export Reals String.
From Verif.Model Require Export Base Str.
Local Open Scope string_scope.
Local Open Scope list_scope.

(** [VObj] is an instance with its attributes, [VArr] a numpy array,
    [VOther n] the n-th object of no further interest (an operator, say). *)
Inductive val :=
| VNone | VBool (b : bool) | VNum (x : R) | VStr (s : string)
| VList (l : list val) | VArr (l : list R)
| VDict (d : list (string * val)) | VObj (attributes : list (string * val)) | VOther (n : nat).

(** A dictionary, or the attributes of an instance, in insertion order. *)
Definition dict := list (string * val).
Fixpoint dget (d : dict) (k : string) : option val :=
  match d with
  | [] => None
  | (k', v) :: d' => if (k' =? k)%string then Some v else dget d' k
  end.
(** [k in d]. *)
Definition dmem (d : dict) (k : string) : bool := match dget d k with Some _ => true | None => false end.
(** [d[k] = v]: in place, or at the end. *)
Fixpoint dset (k : string) (v : val) (d : dict) : dict :=
  match d with
  | [] => [(k, v)]
  | (k', v') :: d' => if (k' =? k)%string then (k, v) :: d' else (k', v') :: dset k v d'
  end.
(** [d.update(e)]. *)
Definition dupdate (d e : dict) : dict := fold_left (fun d kv => dset (fst kv) (snd kv) d) e d.

Definition eq0 (x : R) : bool := if Req_EM_T x 0 then true else false.
(** [bool(v)]: an array of more than one element has none. *)
Definition truthy (v : val) : Res bool :=
  match v with
  | VNone => Ok false
  | VBool b => Ok b
  | VNum x => Ok (negb (eq0 x))
  | VStr s => Ok (negb (s =? "")%string)
  | VList l => Ok (match l with [] => false | _ => true end)
  | VArr [] => Ok false
  | VArr [x] => Ok (negb (eq0 x))
  | VArr _ => Raise ValueError
  | VDict d => Ok (match d with [] => false | _ => true end)
  | VObj _ | VOther _ => Ok true
  end.
(** [v > 0]. *)
Definition gt0 (v : val) : Res bool :=
  match v with
  | VNum x => Ok (if Rlt_dec 0 x then true else false)
  | VBool b => Ok b
  | VArr [x] => Ok (if Rlt_dec 0 x then true else false)
  | VArr _ => Raise ValueError
  | _ => Raise TypeError
  end.
Definition is_none (v : val) : bool := match v with VNone => true | _ => false end.
Definition is_dict (v : val) : bool := match v with VDict _ => true | _ => false end.
(** [v == "..."]; for an array this is an array of False, whose truth value
    is False or, with more than one element, numpy's FutureWarning and False. *)
Definition is_text (v : val) (s : string) : bool := match v with VStr t => (t =? s)%string | _ => false end.
