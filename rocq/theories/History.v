(** Sequential histories of the model. *)
From stdpp Require Import gmap.
From Verif Require Import Bytes Go Uuid Types World IoSpec Id D1 D1Proofs Spec.
Local Open Scope N_scope.

Section History.
  Context {S I : Type} (e : env) (v : view S) (io : provider S).
  Notation W := (world S I).
  Context (idp : bytes -> prog W (res identity)) (d : d1).

  (** What the environment contributes to call [c] started in [w] and ended in [w']: the identity
      its token resolves to, whether the last request to the random source failed, and the id the
      source yields right after the token has been resolved. *)
  Definition outside_of (w : W) (c : d1_call) (w' : W) : outside :=
    match call_token c with
    | Some t => mkOutside (whois idp w t) (rng_failed e w')
                  (res_map uuid_v4 (draw e (w_draws (snd (run (idp t) w))) 16))
    | None => mkOutside (Err ED1NotAuthenticated) (rng_failed e w') (Err ERandom)
    end.

  (** Histories as seen by a set [D] of object ids.  Between two calls anything may happen to
      the world (time passes, users and groups change, the index is used, other data is stored,
      calls on other objects are made, interrupted or not) except to the objects and access lists
      whose id is in [D]. *)
  Context (D : uuid -> bool).
  Definition elsewhere (w w' : W) : Prop :=
    v_inv v (w_io w') /\
    forall oid dt, D oid = true -> dt = DataTypeSealedObject \/ dt = DataTypeSealedAccess ->
      v_map v (w_io w') oid dt = v_map v (w_io w) oid dt.

  Inductive history : W -> list event -> W -> Prop :=
  | h_nil w : history w [] w
  | h_env w w1 evs w2 : elsewhere w w1 -> history w1 evs w2 -> history w evs w2
  | h_call w c r w1 evs w2 :
      run (d1_aes e io idp d c) w = (r, w1) -> history w1 evs w2 ->
      history w (mkEvent (outside_of w c w1) c r :: evs) w2.

  (** Nothing is stored under the ids in [D]. *)
  Definition fresh (w : W) : Prop :=
    v_inv v (w_io w) /\
    forall oid dt, D oid = true -> dt = DataTypeSealedObject \/ dt = DataTypeSealedAccess ->
      v_map v (w_io w) oid dt = None.
End History.

(** The id an event is about: the one it names, or the one Encrypt draws. *)
Definition ev_oid (ev : event) : option uuid :=
  match ev_call ev with
  | CEncrypt _ _ _ => match o_id (ev_outside ev) with Ok oid => Some oid | _ => None end
  | c => call_oid c
  end.
Definition ev_in (D : uuid -> bool) (ev : event) : bool :=
  match ev_oid ev with Some oid => D oid | None => true end.
Definition all_ids : uuid -> bool := fun _ => true.
Definition only (oid : uuid) : uuid -> bool := fun oid' => bytes_eqb oid' oid.

(** Attempts: calls satisfying [P], each through a provider that may fail, each cut anywhere (or
    finished, with or without an error), with other activity in between. *)
Section Attempts.
  Context {S I : Type} (e : env) (v : view S).
  Notation W := (world S I).
  Context (idp : bytes -> prog W (res identity)) (d : d1) (P : d1_call -> Prop) (oid : uuid).
  Inductive attempts : W -> list d1_call -> W -> Prop :=
  | at_nil w : attempts w [] w
  | at_env w w1 cs w2 : elsewhere v (only oid) w w1 -> attempts w1 cs w2 -> attempts w cs w2
  | at_try w (iof : provider S) c n cs w2 : io_spec True v iof -> P c ->
      attempts (snd (run_n n (d1_aes e iof idp d c) w)) cs w2 -> attempts w (c :: cs) w2.
End Attempts.
