(** Index calls that run at the same time: what can be asked of them, and how they run. *)
From stdpp Require Import gmap.
From Verif Require Import Bytes Go Types World IoSpec Id Data D1 Spec Index IndexSpec.
Local Open Scope bool_scope.
Local Open Scope N_scope.

(** ** Keys and additions *)
(** The key that identifiers of a keyword are encrypted under. *)
Definition ix_key (iek kw : bytes) : res bytes := res_map snd (ix_keys iek kw).
(** The keys of the keywords some calls are about. *)
Definition ix_key_of (iek : bytes) (calls : list ix_call) (k : bytes) : Prop :=
  exists c, In c calls /\ ix_key iek (ix_keyword c) = Ok k.
(** No two of these keywords have the same key. *)
Definition ix_keys_differ (iek : bytes) (kws : list bytes) : Prop :=
  forall kw kw', In kw kws -> In kw' kws -> ix_key iek kw = ix_key iek kw' -> kw = kw'.
(** Someone allowed to asked for this identifier to be added under this keyword. *)
Definition ix_added (calls : list ix_call) (who : bytes -> identity -> Prop) (kw x : bytes) : Prop :=
  exists tok i y, In (IAdd tok kw y) calls /\ x = as_text y /\ who tok i /\ scope_has (i_scopes i) ScopeIndex.

(** ** One order for calls that overlap *)
(** What an observer sees: calls being made, numbered from 0 in the order they are made, and replies. *)
Inductive ix_obs :=
| OCall (c : ix_call)
| OReply (t : nat) (r : res ix_reply).
Fixpoint obs_calls (tr : list ix_obs) : list ix_call :=
  match tr with [] => [] | OCall c :: tr => c :: obs_calls tr | OReply _ _ :: tr => obs_calls tr end.

(** Successful calls one after the other. *)
Definition ix_does (c : ix_call) (rep : ix_reply) (m m' : index) : Prop :=
  match c with
  | IAdd _ kw y => rep = IRUnit /\ becomes kw (m kw ++ [as_text y]) m m'
  | ISearch _ kw => rep = IRIds (m kw) /\ same m m'
  | IDelete _ kw y => rep = IRUnit /\ becomes kw (without y (m kw)) m m'
  end.
Record ix_did := mkDid { d_call : nat; d_what : ix_call; d_reply : ix_reply }.
Inductive ix_serial : index -> list ix_did -> index -> Prop :=
| is_nil m m' : same m m' -> ix_serial m [] m'
| is_cons m d m1 ds m2 : ix_does (d_what d) (d_reply d) m m1 -> ix_serial m1 ds m2 -> ix_serial m (d :: ds) m2.

(** The calls observed act like the calls of [ds], one after the other in this order: each acts at
    most once; replies of successful calls are as in [ds]; failed calls are not in it; and a call
    made after another was answered comes later: whatever was answered in a first part [tr1] of the
    observations acts before whatever was not yet called then. *)
Definition ix_linearizes (m : index) (tr : list ix_obs) (ds : list ix_did) (m' : index) : Prop :=
  ix_serial m ds m' /\ NoDup (map d_call ds) /\
  (forall d, In d ds -> nth_error (obs_calls tr) (d_call d) = Some (d_what d)) /\
  (forall t rep, In (OReply t (Ok rep)) tr -> exists c, In (mkDid t c rep) ds) /\
  (forall t r, In (OReply t r) tr -> (forall rep, r <> Ok rep) -> ~ In t (map d_call ds)) /\
  (forall tr1 tr2, tr = tr1 ++ tr2 -> exists ds1 ds2, ds = ds1 ++ ds2 /\
     (forall t rep, In (OReply t (Ok rep)) tr1 -> In t (map d_call ds1)) /\
     (forall t, In t (map d_call ds1) -> (t < length (obs_calls tr1))%nat)).

(** How a call may fail here: the caller is not known or not allowed, the identity provider panics, or,
    for an Add, the random source fails or another Add for the keyword came first. *)
Definition ix_refused (c : ix_call) (r : res ix_reply) : Prop :=
  r = Err EIxNotAuthenticated \/ r = Err EIxNotAuthorized \/ r = Panic \/
  (exists tok kw y, c = IAdd tok kw y) /\ (r = Err ERandom \/ r = Err EIxNodeAlreadyExists).

(** ** How they run *)
Section Run.
  Context {S I : Type} (e : env) (v : view S).
  Notation W := (world S I).
  Context (idp : bytes -> prog W (res identity)) (iek : bytes) (fuel : nat) (io : provider S).
  (** Around the calls anything may happen except to the stored nodes. *)
  Definition ix_around (w w' : W) : Prop :=
    v_inv v (w_io w') /\ forall id, v_map v (w_io w') id DataTypeSealedNode = v_map v (w_io w) id DataTypeSealedNode.
  (** Calls are made at any time, and their steps are interleaved in any way. *)
  Inductive ix_conc : list (prog W (res ix_reply)) -> W -> list ix_obs -> list (prog W (res ix_reply)) -> W -> Prop :=
  | ic_nil pool w : ix_conc pool w [] pool w
  | ic_env pool w w1 tr pool' w' : ix_around w w1 -> ix_conc pool w1 tr pool' w' -> ix_conc pool w tr pool' w'
  | ic_call c pool w tr pool' w' : ix_conc (pool ++ [ix_do e io idp iek fuel c]) w tr pool' w' -> ix_conc pool w (OCall c :: tr) pool' w'
  | ic_step t X (f : W -> X * W) k pool w tr pool' w' : pool !! t = Some (Step f k) ->
      ix_conc (<[t := k (fst (f w))]> pool) (snd (f w)) tr pool' w' -> ix_conc pool w tr pool' w'
  | ic_reply t r pool w tr pool' w' : pool !! t = Some (Ret r) -> ix_conc pool w tr pool' w' -> ix_conc pool w (OReply t r :: tr) pool' w'.
End Run.

(** An operation that is one atomic step on the map of io.go (in bolt.go, one transaction). *)
Definition atomic {S A} (v : view S) (p : prog S (res A)) (pure : store -> res A * store) : Prop :=
  match p with
  | Ret _ => False
  | Step f k => forall s, v_inv v s ->
      v_inv v (snd (f s)) /\ k (fst (f s)) = Ret (fst (pure (v_map v s))) /\ seq (v_map v (snd (f s))) (snd (pure (v_map v s)))
  end.
(** Get and Put are. *)
Definition atomic_get_put {S} (v : view S) (io : provider S) : Prop :=
  (forall id dt, dt < 65536 -> atomic v (io_get io id dt) (map_get id dt)) /\
  (forall id dt d, dt < 65536 -> d <> [] -> atomic v (io_put io id dt d) (map_put id dt d)).
(** No step of the program changes the map. *)
Fixpoint only_reads {S I B} (v : view S) (p : prog (world S I) B) : Prop :=
  match p with
  | Ret _ => True
  | Step f k => forall w, v_inv v (w_io w) ->
      v_inv v (w_io (snd (f w))) /\ seq (v_map v (w_io (snd (f w)))) (v_map v (w_io w)) /\ only_reads v (k (fst (f w)))
  end.
