(** Interleavings of programs over a shared state, without an adversary. *)
From stdpp Require Import list.
From Verif Require Import Bytes Go.

(** Any number of atomic actions, each of any one of the programs. *)
Inductive steps {W A} : list (prog W A) -> W -> list (prog W A) -> W -> Prop :=
| s_nil pool w : steps pool w pool w
| s_step t X (f : W -> X * W) k pool w pool' w' :
    pool !! t = Some (Step f k) ->
    steps (<[t := k (fst (f w))]> pool) (snd (f w)) pool' w' -> steps pool w pool' w'.
