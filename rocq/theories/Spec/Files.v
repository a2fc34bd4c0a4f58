(** Vocabulary for statements about directory creation. *)
From Verif.Model Require Import Io.

(** Everything that was there is still there, and still of the same sort. *)
Definition kept (f g : fs) : Prop := forall p n, f p = Some n -> g p = Some n.

(** What is there and was not before is a directory. *)
Definition only_new_dirs (f g : fs) : Prop := forall p, f p = None -> g p = None \/ g p = Some Dir.

(** The other processes leave everything alone / only create directories /
    only create things. *)
Definition quiet (env : nat -> fs -> fs) : Prop := forall k f, env k f = f.
Definition makes_dirs (env : nat -> fs -> fs) : Prop := forall k f, kept f (env k f) /\ only_new_dirs f (env k f).
Definition keeps (env : nat -> fs -> fs) : Prop := forall k f, kept f (env k f).

(** [q] is [p] or one of the directories it lies in. *)
Definition on_the_way (q p : path) : Prop := exists t, p = (t ++ q)%list.
