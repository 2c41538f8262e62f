(** Specification of an io.Provider: the map documented in io/io.go:56-72, and what it means for
    a provider to implement it, possibly failing, possibly cut short by a crash. *)
From Verif Require Import Bytes Go World Logic.
Local Open Scope bool_scope.
Local Open Scope N_scope.

(** A store maps (id, data type) to data. *)
Definition store := bytes -> N -> option bytes.
Definition store_empty : store := fun _ _ => None.
Definition upd (m : store) (id : bytes) (dt : N) (v : option bytes) : store :=
  fun id' dt' => if bytes_eqb id' id && (dt' =? dt) then v else m id' dt'.
(** Equality of stores. *)
Definition seq (m m' : store) : Prop := forall id dt, m id dt = m' id dt.

(** The four operations on the map. *)
Definition map_put (id : bytes) (dt : N) (d : bytes) (m : store) : res unit * store :=
  match m id dt with
  | Some _ => (Err EIoAlreadyExists, m)
  | None => (Ok tt, upd m id dt (Some d))
  end.
Definition map_get (id : bytes) (dt : N) (m : store) : res bytes * store :=
  (match m id dt with Some d => Ok d | None => Err EIoNotFound end, m).
Definition map_update (id : bytes) (dt : N) (d : bytes) (m : store) : res unit * store :=
  match m id dt with
  | Some _ => (Ok tt, upd m id dt (Some d))
  | None => (Err EIoNotFound, m)
  end.
Definition map_delete (id : bytes) (dt : N) (m : store) : res unit * store :=
  (Ok tt, upd m id dt None).

(** An error the documentation gives no meaning to. *)
Definition fault (r : err) : Prop := exists n, r = EIoOther n.

(** A view of a provider's state: which states occur, and the map they stand for. *)
Record view (S : Type) := mkView { v_inv : S -> Prop; v_map : S -> store }.
Arguments mkView {S}. Arguments v_inv {S}. Arguments v_map {S}.

(** One operation implements [pure]: run to the end it gives the specified reply and effect, or,
    if faults are allowed ([F]), an error with the effect done or not; and wherever it is cut, the
    effect is done or not. *)
Definition implements {S A} (F : Prop) (v : view S) (p : prog S (res A)) (pure : store -> res A * store) : Prop :=
  forall s, v_inv v s ->
    let before := v_map v s in
    let after := snd (pure before) in
    wpc p
      (fun s' => v_inv v s' /\ (seq (v_map v s') before \/ seq (v_map v s') after))
      (fun r s' =>
        (r = fst (pure before) /\ seq (v_map v s') after) \/
        (F /\ exists x, r = Err x /\ fault x)) s.

(** A provider.  Empty data is excluded (the library never stores any). *)
Record io_spec {S} (F : Prop) (v : view S) (io : provider S) : Prop := mkIoSpec {
  spec_put : forall id dt d, dt < 65536 -> d <> [] -> implements F v (io_put io id dt d) (map_put id dt d);
  spec_get : forall id dt, dt < 65536 -> implements F v (io_get io id dt) (map_get id dt);
  spec_update : forall id dt d, dt < 65536 -> d <> [] -> implements F v (io_update io id dt d) (map_update id dt d);
  spec_delete : forall id dt, dt < 65536 -> implements F v (io_delete io id dt) (map_delete id dt) }.
