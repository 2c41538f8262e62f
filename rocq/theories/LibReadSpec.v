(** What Decrypt and Search should answer when calls overlap, from what was observed before they were made. *)
From stdpp Require Import gmap.
From Verif Require Import Bytes Go Uuid Types Id Data D1 Spec Standalone StandaloneSpec Index IndexSpec Lib LibSpec LibConcSpec LibConcUseSpec.

(** ** Objects *)
(** A call answered like this has stored [o] as [oid]. *)
Definition stores (oid : uuid) (o : object) (c : lib_call) (r : lib_reply) : Prop :=
  match c, r with
  | OnObject (CEncrypt _ o' _), LObject (Ok (ROid oid')) => oid' = oid /\ o' = o
  | OnObject (CUpdate _ oid' o'), LObject (Ok RUnit) => oid' = oid /\ o' = o
  | _, _ => False
  end.
(** Calls that may replace or remove it, and answers that say that the call has not. *)
Definition replaces (oid : uuid) (c : lib_call) : Prop :=
  match c with OnObject (CUpdate _ oid' _) | OnObject (CDelete _ oid') => oid' = oid | _ => False end.
Definition failed (r : lib_reply) : Prop := match r with LObject (Ok _) => False | _ => True end.
(** [o] was stored as [oid], and all other calls that may replace or remove it were over by then, or failed. *)
Definition object_stored (oid : uuid) (o : object) (all tr : list lib_obs) : Prop :=
  exists tr1 c r, answered_call c r tr1 tr /\ stores oid o c r /\
  forall m c', nth_error (lib_calls all) m = Some c' -> m <> length (lib_calls tr1) -> replaces oid c' ->
    exists r', In (LReply m r') tr1 \/ In (LReply m r') all /\ failed r'.
(** [oid] was deleted, and Encrypt has not returned it since. *)
Definition is_encrypt (c : lib_call) : Prop := match c with OnObject (CEncrypt _ _ _) => True | _ => False end.
Definition not_oid (oid : uuid) (r : lib_reply) : Prop := r <> LObject (Ok (ROid oid)).
Definition object_deleted (oid : uuid) (all tr : list lib_obs) : Prop :=
  exists tr1 tok, answered_call (OnObject (CDelete tok oid)) (LObject (Ok RUnit)) tr1 tr /\ settled all tr1 is_encrypt (not_oid oid).

(** ** The index *)
(** The first answer to the [n]th call. *)
Fixpoint reply_to (tr : list lib_obs) (n : nat) : option lib_reply :=
  match tr with
  | [] => None
  | LReply m r :: tr => if Nat.eqb m n then Some r else reply_to tr n
  | LCall _ :: tr => reply_to tr n
  end.
(** What the [n]th call did to the list [l] of [kw], going by its answer. *)
Definition seen_effect (tr : list lib_obs) (kw : bytes) (l : list bytes) (n : nat) : list bytes :=
  match nth_error (lib_calls tr) n, reply_to tr n with
  | Some (OnIndex (IAdd _ kw' y)), Some (LIndex (Ok _)) => if bytes_eqb kw' kw then l ++ [as_text y] else l
  | Some (OnIndex (IDelete _ kw' y)), Some (LIndex (Ok _)) => if bytes_eqb kw' kw then without y l else l
  | _, _ => l
  end.
(** All calls in [tr], in the order in which they were made. *)
Definition seen_listing (tr : list lib_obs) (kw : bytes) : list bytes := fold_left (seen_effect tr kw) (seq 0 (length (lib_calls tr))) [].
(** A Delete for [kw] that the random source made fail half way. *)
Definition seen_botched (tr : list lib_obs) (kw : bytes) : Prop :=
  exists n tok y, nth_error (lib_calls tr) n = Some (OnIndex (IDelete tok kw y)) /\ In (LReply n (LIndex (Err ERandom))) tr.
