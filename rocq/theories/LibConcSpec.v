(** Calls of all three kinds that run at the same time, of a D1 and a SecureIndex whose identity provider
    is a Standalone: which of them may overlap, and what is asked of them. *)
From stdpp Require Import gmap.
From Verif Require Import Bytes Go Uuid Time Types World IoSpec Id Data D1 Spec D1ConcSpec Standalone StandaloneSpec SaConcSpec
  Index IndexSpec IndexConcSpec IndexOwnSpec Foot Lib LibSpec LibHist.
Local Open Scope bool_scope.
Local Open Scope N_scope.

(** ** What an observer sees: calls being made, numbered from 0 in the order they are made, and replies. *)
Inductive lib_obs :=
| LCall (c : lib_call)
| LReply (t : nat) (r : lib_reply).
Fixpoint lib_calls (tr : list lib_obs) : list lib_call :=
  match tr with [] => [] | LCall c :: tr => c :: lib_calls tr | LReply _ _ :: tr => lib_calls tr end.
(** The index calls among some calls. *)
Definition index_calls (cs : list lib_call) : list ix_call := flat_map (fun c => match c with OnIndex c => [c] | _ => [] end) cs.

(** The token that an object or index call has the identity provider look up. *)
Definition looks_up (c : lib_call) : option bytes :=
  match c with OnObject c => call_token c | OnIndex c => Some (ix_token c) | OnIdentity _ => None end.

(** ** Which calls must not overlap *)
(** What the identity provider sees of it: to it, an object or index call is a GetIdentity (of the empty
    token, which stands for nobody, if the call has none). *)
Definition id_call (c : lib_call) : sa_call :=
  match c with
  | OnIdentity c => c
  | OnObject c => SGetIdentity match call_token c with Some t => t | None => [] end
  | OnIndex c => SGetIdentity (ix_token c)
  end.
Definition id_part (tr : list lib_obs) : list sa_obs :=
  flat_map (fun o => match o with
    | LCall c => [ICall (id_call c)]
    | LReply t (LIdentity r) => [IReply t r]
    | LReply _ _ => []
    end) tr.
(** Object calls are at odds as in D1ConcSpec, index calls as in IndexOwnSpec, and calls of different kinds never. *)
Definition lib_odds (c c' : lib_call) : Prop :=
  match c, c' with
  | OnObject c, OnObject c' => D1ConcSpec.at_odds c c'
  | OnIndex c, OnIndex c' => ix_odds c c'
  | _, _ => False
  end.
(** When a call is made, the earlier calls it is at odds with have been answered.  GetIdentity is at odds
    with nothing (SaConcSpec), so calls of different kinds may always overlap. *)
Definition lib_orderly (tr : list lib_obs) : Prop :=
  SaConcSpec.orderly (id_part tr) /\
  forall tr1 c tr2, tr = tr1 ++ LCall c :: tr2 ->
  forall t c', nth_error (lib_calls tr1) t = Some c' -> lib_odds c' c -> exists r, In (LReply t r) tr1.

(** ** Random ids *)
(** Nobody names a user or an object whose id the random source yields in that time before it has been returned. *)
Definition lib_no_guess (e : env) (n n' : nat) (tr : list lib_obs) : Prop :=
  SaConcSpec.no_guess e n n' (id_part tr) /\
  forall tr1 c tr2 i b, tr = tr1 ++ LCall (OnObject c) :: tr2 -> (n <= i < n')%nat -> draw e i 16 = Ok b -> call_oid c = Some (uuid_v4 b) ->
  exists t, In (LReply t (LObject (Ok (ROid (uuid_v4 b))))) tr1.
(** What Go's types give: scopes are 64 bits wide and object ids are 16 bytes. *)
Definition lib_wf (tr : list lib_obs) : Prop :=
  scopes_wf (id_part tr) /\ forall c oid, In (OnObject c) (lib_calls tr) -> call_oid c = Some oid -> uuid_wf oid.

(** ** One order for calls that overlap *)
(** A call of the identity provider acts once.  An object or index call acts twice: it has its token looked
    up, and later does what it does as the identity that was found. *)
Inductive half :=
| HIdentity (t : nat) (ev : sa_event)
| HLookup (t : nat) (x : surroundings) (tok : bytes) (who : res identity)
| HObject (t : nat) (ev : event)
| HIndex (t : nat) (ev : ix_event).
Definition half_call (h : half) : nat := match h with HIdentity t _ | HLookup t _ _ _ | HObject t _ | HIndex t _ => t end.
Definition is_lookup (h : half) : bool := match h with HLookup _ _ _ _ => true | _ => false end.
Definition half_reply (h : half) : option lib_reply :=
  match h with
  | HIdentity _ ev => Some (LIdentity (sv_reply ev))
  | HLookup _ _ _ _ => None
  | HObject _ ev => Some (LObject (ev_reply ev))
  | HIndex _ ev => Some (LIndex (iv_reply ev))
  end.
(** What it does to the directory, the objects and the index. *)
Definition half_step (h : half) (s s' : lib_state) : Prop :=
  match h with
  | HIdentity _ ev => sa_step (sv_x ev) (sv_call ev) (ls_dir s) (sv_reply ev) (ls_dir s') /\ ls_objects s' = ls_objects s /\ ls_index s' = ls_index s
  | HLookup _ x tok who => StandaloneSpec.resolves (ls_dir s) (x_now x) tok who /\ s' = s
  | HObject _ ev => spec_step (ev_outside ev) (ev_call ev) (ls_objects s) (ev_reply ev) (ls_objects s') /\ ls_dir s' = ls_dir s /\ ls_index s' = ls_index s
  | HIndex _ ev => ix_step (iv_x ev) (iv_call ev) (ls_index s) (iv_reply ev) (ls_index s') /\ ls_dir s' = ls_dir s /\ ls_objects s' = ls_objects s
  end.
Inductive half_history : lib_state -> list half -> lib_state -> Prop :=
| hh_nil s : half_history s [] s
| hh_cons s h s1 hs s2 : half_step h s s1 -> half_history s1 hs s2 -> half_history s (h :: hs) s2.
(** It belongs to the call of its number, and what the environment contributes is what it may contribute. *)
Definition half_of (e : env) (cs : list lib_call) (h : half) : Prop :=
  match h with
  | HIdentity t ev => nth_error cs t = Some (OnIdentity (sv_call ev)) /\ SaConcSpec.outside_ok e (sv_x ev)
  | HLookup t x tok _ => (exists c, nth_error cs t = Some c /\ looks_up c = Some tok) /\ SaConcSpec.outside_ok e x
  | HObject t ev => nth_error cs t = Some (OnObject (ev_call ev)) /\
      (o_rng_fails (ev_outside ev) -> exists i n, draw e i n = Err ERandom) /\
      (forall oid, o_id (ev_outside ev) = Ok oid -> exists i b, draw e i 16 = Ok b /\ oid = uuid_v4 b)
  | HIndex t ev => nth_error cs t = Some (OnIndex (iv_call ev)) /\ (ix_rng_fails (iv_x ev) -> exists i n, draw e i n = Err ERandom)
  end.
(** The identity that an object or index call acts as, if it acts as anybody. *)
Definition half_who (h : half) : option (bytes * res identity) :=
  match h with
  | HObject _ ev => match call_token (ev_call ev) with Some tok => Some (tok, o_who (ev_outside ev)) | None => None end
  | HIndex _ ev => Some (ix_token (iv_call ev), ix_who (iv_x ev))
  | _ => None
  end.
(** The calls observed act like [hs], one after the other in this order, from an empty library:
    - each call has its token looked up at most once and acts at most once, in ways that belong to it;
    - an object or index call acts as the identity its own token was found to stand for, earlier;
    - replies are as in [hs];
    - a call made after another was answered comes later, token lookup and all: whatever was answered in a
      first part [tr1] of the observations has acted before anything of a call not yet made then. *)
Definition lib_acts (e : env) (tr : list lib_obs) (hs : list half) (s' : lib_state) : Prop :=
  half_history lib_empty hs s' /\ NoDup (map (fun h => (half_call h, is_lookup h)) hs) /\
  (forall h, In h hs -> half_of e (lib_calls tr) h) /\
  (forall hs1 h hs2 tok who, hs = hs1 ++ h :: hs2 -> half_who h = Some (tok, who) -> exists x, In (HLookup (half_call h) x tok who) hs1) /\
  (forall t r, In (LReply t r) tr -> exists h, In h hs /\ half_call h = t /\ half_reply h = Some r) /\
  (forall tr1 tr2, tr = tr1 ++ tr2 -> exists hs1 hs2, hs = hs1 ++ hs2 /\
     (forall t r, In (LReply t r) tr1 -> exists h, In h hs1 /\ half_call h = t /\ half_reply h = Some r) /\
     (forall h, In h hs1 -> (half_call h < length (lib_calls tr1))%nat)).

(** ** How they run *)
Section Run.
  Context {S I : Type} (e : env) (v : view S).
  Notation W := (world S I).
  (** What the library stores is not touched, and the random source goes on. *)
  Definition lib_spared (w w' : W) : Prop :=
    v_inv v (w_io w') /\ (w_draws w <= w_draws w')%nat /\ forall id dt, lib_data dt -> v_map v (w_io w') id dt = v_map v (w_io w) id dt.
  (** Nothing of the library is stored yet. *)
  Definition lib_vacant (w : W) : Prop := v_inv v (w_io w) /\ forall id dt, lib_data dt -> v_map v (w_io w) id dt = None.
  Context (io : provider S) (L : lib) (fuel : nat).
  (** The methods of one D1 (d1.go:119-479), one SecureIndex (index/index.go:80-206) and one Standalone
      (id/standalone.go:91-328), called from any number of goroutines; none of the three holds a lock or
      state of its own.  Calls are made at any time, their steps are interleaved in any way, and in between
      anything may happen except to what the library stores. *)
  Inductive lib_conc : list (prog W lib_reply) -> W -> list lib_obs -> list (prog W lib_reply) -> W -> Prop :=
  | lc_nil pool w : lib_conc pool w [] pool w
  | lc_env pool w w1 tr pool' w' : lib_spared w w1 -> lib_conc pool w1 tr pool' w' -> lib_conc pool w tr pool' w'
  | lc_call c pool w tr pool' w' : lib_conc (pool ++ [lib_do e io L fuel c]) w tr pool' w' -> lib_conc pool w (LCall c :: tr) pool' w'
  | lc_step t X (f : W -> X * W) q pool w tr pool' w' : pool !! t = Some (Step f q) ->
      lib_conc (<[t := q (fst (f w))]> pool) (snd (f w)) tr pool' w' -> lib_conc pool w tr pool' w'
  | lc_reply t r pool w tr pool' w' : pool !! t = Some (Ret r) -> lib_conc pool w tr pool' w' -> lib_conc pool w (LReply t r :: tr) pool' w'.
End Run.

(** ** Storage whose writes leave other entries alone, whatever else is going on *)
Fixpoint only_entry {S B} (v : view S) (id : bytes) (dt : N) (p : prog S B) : Prop :=
  match p with
  | Ret _ => True
  | Step f k => forall s, v_inv v s -> v_inv v (snd (f s)) /\
      (forall id' dt', (id', dt') <> (id, dt) -> v_map v (snd (f s)) id' dt' = v_map v s id' dt') /\ only_entry v id dt (k (fst (f s)))
  end.
Record entrywise {S} (v : view S) (io : provider S) : Prop := mkEntrywise {
  ew_put : forall id dt b, dt < 65536 -> b <> [] -> only_entry v id dt (io_put io id dt b);
  ew_update : forall id dt b, dt < 65536 -> b <> [] -> only_entry v id dt (io_update io id dt b);
  ew_delete : forall id dt, dt < 65536 -> only_entry v id dt (io_delete io id dt) }.
