(** Vocabulary for statements about parameter files. *)
From Coq Require Import Reals.
From Coquelicot Require Import Complex.
From Verif.Model Require Import LoadParams.

(** The kind of a value. *)
Inductive kind := KFloat | KInt | KBool | KComplex | KStr | KNone | KList | KArr (dtype : nat) | KQobj | KOther (k : nat).
Definition kind_of (v : pyval) : kind :=
  match v with
  | VFloat _ => KFloat | VInt _ => KInt | VBool _ => KBool | VComplex _ => KComplex | VStr _ => KStr
  | VNone => KNone | VList _ => KList | VArr dt _ => KArr dt | VQobj _ => KQobj | VOther k => KOther k
  end.

(** The section an option list stands for has one value per name. *)
Definition no_dup_names (l : section) : Prop := NoDup (map fst l).

Section Reads.
Variable py_eval : string -> Res pyval.
Variable to_float : string -> option R.
Variable to_int : string -> option Z.
Variable to_complex : string -> option C.
Variable as_list : pyval -> Res (list pyval).
Variable as_array : nat -> pyval -> Res (list pyval).
Variable as_qobj : pyval -> Res (list pyval).

(** The text [val] read for an attribute of the given kind is the value [v]. *)
Inductive reads : kind -> string -> pyval -> Prop :=
| ReadInt s z : to_int s = Some z -> reads KInt s (VInt z)
| ReadBool s b : to_bool s = Some b -> reads KBool s (VBool b)
| ReadComplex s c : to_complex s = Some c -> reads KComplex s (VComplex c)
| ReadList s x l : py_eval s = Ok x -> as_list x = Ok l -> reads KList s (VList l)
| ReadArr dt s x l : py_eval s = Ok x -> as_array dt x = Ok l -> reads (KArr dt) s (VArr dt l)
| ReadQobj s x q : py_eval s = Ok x -> as_qobj x = Ok q -> reads KQobj s (VQobj q)
| ReadFloat s x : to_float s = Some x -> reads KFloat s (VFloat x)
| ReadFloatExpr s v : to_float s = None -> py_eval s = Ok v -> reads KFloat s v
| ReadAnyFloat k s x : k = KStr \/ k = KNone \/ (exists n, k = KOther n) -> to_float s = Some x -> reads k s (VFloat x)
| ReadAnyBool k s b : k = KStr \/ k = KNone \/ (exists n, k = KOther n) ->
    to_float s = None -> to_bool s = Some b -> reads k s (VBool b)
| ReadAnyText k s : k = KStr \/ k = KNone \/ (exists n, k = KOther n) ->
    to_float s = None -> to_bool s = None -> reads k s (VStr s).

(** The option is fine for the object: nothing to set, or a value that can be
    read and assigned. *)
Definition fits (o : obj) (n : string) (value : Res string) : Prop :=
  exists val, value = Ok val /\
  match attrs o n with
  | None => True
  | Some old => readonly o n = false /\ exists v, reads (kind_of old) val v
  end.

(** What the attribute [a] is after the options [done] have been loaded. *)
Definition loaded (done : section) (before : obj) (a : string) (after : option pyval) : Prop :=
  match lookup a done, attrs before a with
  | Some (Ok val), Some old => exists v, after = Some v /\ reads (kind_of old) val v
  | _, o => after = o
  end.

(** Loading a section: its options in order up to the first that does not
    fit; everything else about the object stays. *)
Definition section_effect (opts : section) (before after : obj) : Prop :=
  exists done rest, opts = done ++ rest /\
    (forall n v, In (n, v) done -> fits before n v) /\
    match rest with [] => True | (n, v) :: _ => ~ fits before n v end /\
    readonly after = readonly before /\
    forall a, loaded done before a (attrs after a).
End Reads.
