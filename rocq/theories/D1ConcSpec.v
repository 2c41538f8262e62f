(** Object calls that run at the same time: which of them may overlap, and what is asked of them. *)
From stdpp Require Import gmap.
From Verif Require Import Bytes Go Uuid Types World IoSpec Id D1 Spec.
Local Open Scope bool_scope.
Local Open Scope N_scope.

(** ** What an observer sees: calls being made, numbered from 0 in the order they are made, and replies. *)
Inductive d1_obs :=
| DCall (c : d1_call)
| DReply (t : nat) (r : res d1_reply).
Fixpoint calls_of (tr : list d1_obs) : list d1_call :=
  match tr with [] => [] | DCall c :: tr => c :: calls_of tr | DReply _ _ :: tr => calls_of tr end.

(** ** Which calls must not overlap *)
(** Calls that replace or remove the object, and calls that change who is on its access list. *)
Definition rewrites (c : d1_call) : bool := match c with CUpdate _ _ _ | CDelete _ _ => true | _ => false end.
Definition regroups (c : d1_call) : bool := match c with CAddGroups _ _ _ | CRemoveGroups _ _ _ => true | _ => false end.
Definition decrypts (c : d1_call) : bool := match c with CDecrypt _ _ => true | _ => false end.
(** Two calls on the same object are at odds if both change something, or if one replaces or removes
    the object and the other decrypts it.  So GetAccessGroups and AuthorizeIdentity are never at odds
    with anything, and Decrypt is not with changes of the access list. *)
Definition at_odds (c c' : d1_call) : Prop :=
  (exists oid, call_oid c = Some oid /\ call_oid c' = Some oid) /\
  ((rewrites c = true \/ regroups c = true) /\ (rewrites c' = true \/ regroups c' = true) \/
   rewrites c = true /\ decrypts c' = true \/ decrypts c = true /\ rewrites c' = true).
(** When a call is made, the earlier calls it is at odds with have been answered. *)
Definition orderly (tr : list d1_obs) : Prop :=
  forall tr1 c tr2, tr = tr1 ++ DCall c :: tr2 ->
  forall t c', nth_error (calls_of tr1) t = Some c' -> at_odds c' c -> exists r, In (DReply t r) tr1.

(** ** Random ids *)
(** From the [n]-th draw up to the [n']-th, the random source does not repeat an id. *)
Definition ids_differ (e : env) (n n' : nat) : Prop :=
  forall i j b b', (n <= i < n')%nat -> (n <= j < n')%nat -> i <> j -> draw e i 16 = Ok b -> draw e j 16 = Ok b' -> uuid_v4 b <> uuid_v4 b'.
(** Nobody names an id the random source yields in that time before Encrypt has returned it. *)
Definition no_guess (e : env) (n n' : nat) (tr : list d1_obs) : Prop :=
  forall tr1 c tr2 i b, tr = tr1 ++ DCall c :: tr2 -> (n <= i < n')%nat -> draw e i 16 = Ok b -> call_oid c = Some (uuid_v4 b) ->
  exists t, In (DReply t (Ok (ROid (uuid_v4 b)))) tr1.
(** What Go's types give: ids are 16 bytes. *)
Definition ids_wf (tr : list d1_obs) : Prop := forall c oid, In c (calls_of tr) -> call_oid c = Some oid -> uuid_wf oid.

(** ** One order for calls that overlap *)
Record d1_did := mkDone { dn_call : nat; dn_event : event }.
(** What the environment contributes to a call is what it may contribute: the identity is an answer of
    the identity provider to the token, the random source fails only if some draw fails, and the id is drawn. *)
Definition outside_ok (e : env) (who : bytes -> res identity -> Prop) (c : d1_call) (x : outside) : Prop :=
  (forall tok, call_token c = Some tok -> who tok (o_who x)) /\
  (o_rng_fails x -> exists i n, draw e i n = Err ERandom) /\
  (forall oid, o_id x = Ok oid -> exists i b, draw e i 16 = Ok b /\ oid = uuid_v4 b).
(** The calls observed act like the events of [ds], one after the other in this order: each acts at most
    once; replies are as in [ds]; and a call made after another was answered comes later: whatever was
    answered in a first part [tr1] of the observations acts before whatever was not yet called then. *)
Definition d1_linearizes (e : env) (who : bytes -> res identity -> Prop) (m : objects) (tr : list d1_obs) (ds : list d1_did) (m' : objects) : Prop :=
  spec_history m (map dn_event ds) m' /\ NoDup (map dn_call ds) /\
  (forall d, In d ds -> nth_error (calls_of tr) (dn_call d) = Some (ev_call (dn_event d)) /\
     outside_ok e who (ev_call (dn_event d)) (ev_outside (dn_event d))) /\
  (forall t r, In (DReply t r) tr -> exists d, In d ds /\ dn_call d = t /\ ev_reply (dn_event d) = r) /\
  (forall tr1 tr2, tr = tr1 ++ tr2 -> exists ds1 ds2, ds = ds1 ++ ds2 /\
     (forall t r, In (DReply t r) tr1 -> In t (map dn_call ds1)) /\
     (forall t, In t (map dn_call ds1) -> (t < length (calls_of tr1))%nat)).

(** ** How they run *)
Section Run.
  Context {S I : Type} (e : env) (v : view S).
  Notation W := (world S I).
  (** Objects and access lists are not touched, and the random source goes on. *)
  Definition keeps (w w' : W) : Prop :=
    v_inv v (w_io w') /\ (w_draws w <= w_draws w')%nat /\
    forall oid dt, dt = DataTypeSealedObject \/ dt = DataTypeSealedAccess -> v_map v (w_io w') oid dt = v_map v (w_io w) oid dt.
  (** A program all of whose steps do so, and what it may return. *)
  Fixpoint answers {B} (p : prog W B) (Q : B -> Prop) : Prop :=
    match p with
    | Ret b => Q b
    | Step f k => forall w, v_inv v (w_io w) -> keeps w (snd (f w)) /\ answers (k (fst (f w))) Q
    end.
  (** A program that does not turn the random source back. *)
  Fixpoint forward {B} (p : prog W B) : Prop :=
    match p with
    | Ret _ => True
    | Step f k => forall w, (w_draws w <= w_draws (snd (f w)))%nat /\ forward (k (fst (f w)))
    end.
  Context (io : provider S) (idp : bytes -> prog W (res identity)) (d : d1).
  (** The methods of one D1 value, d1.go:119-479, called from any number of goroutines: D1 holds no lock
      and no state of its own (d1.go:54-64).  Calls are made at any time, their steps are interleaved in any way, and in between anything may
      happen except to objects and access lists. *)
  Inductive d1_conc : list (prog W (res d1_reply)) -> W -> list d1_obs -> list (prog W (res d1_reply)) -> W -> Prop :=
  | dc_nil pool w : d1_conc pool w [] pool w
  | dc_env pool w w1 tr pool' w' : keeps w w1 -> d1_conc pool w1 tr pool' w' -> d1_conc pool w tr pool' w'
  | dc_call c pool w tr pool' w' : d1_conc (pool ++ [d1_aes e io idp d c]) w tr pool' w' -> d1_conc pool w (DCall c :: tr) pool' w'
  | dc_step t X (f : W -> X * W) k pool w tr pool' w' : pool !! t = Some (Step f k) ->
      d1_conc (<[t := k (fst (f w))]> pool) (snd (f w)) tr pool' w' -> d1_conc pool w tr pool' w'
  | dc_reply t r pool w tr pool' w' : pool !! t = Some (Ret r) -> d1_conc pool w tr pool' w' -> d1_conc pool w (DReply t r :: tr) pool' w'.
End Run.

(** ** Storage whose entries change in one step *)
(** As long as nobody else touches the entry [(id, dt)], which is [cur]: the operation may look at it,
    then changes it to [new] in its last step (or, if [new] is [None], not at all) and returns [r]. *)
Fixpoint one_write {S} (v : view S) (id : bytes) (dt : N) (cur : option bytes) (new : option (option bytes)) (r : res unit) (p : prog S (res unit)) : Prop :=
  match p with
  | Ret x => new = None /\ x = r
  | Step f k => forall s, v_inv v s -> v_map v s id dt = cur ->
      v_inv v (snd (f s)) /\
      (seq (v_map v (snd (f s))) (v_map v s) /\ one_write v id dt cur new r (k (fst (f s))) \/
       exists y, new = Some y /\ seq (v_map v (snd (f s))) (upd (v_map v s) id dt y) /\ k (fst (f s)) = Ret r)
  end.
Record cell_storage {S} (v : view S) (io : provider S) : Prop := mkCellStorage {
  cell_get : forall id dt, dt < 65536 ->
    match io_get io id dt with
    | Ret _ => False
    | Step f k => forall s, v_inv v s -> v_inv v (snd (f s)) /\ seq (v_map v (snd (f s))) (v_map v s) /\
        k (fst (f s)) = Ret match v_map v s id dt with Some b => Ok b | None => Err EIoNotFound end
    end;
  cell_put : forall id dt b, dt < 65536 -> b <> [] ->
    one_write v id dt None (Some (Some b)) (Ok tt) (io_put io id dt b) /\
    forall x, one_write v id dt (Some x) None (Err EIoAlreadyExists) (io_put io id dt b);
  cell_update : forall id dt b, dt < 65536 -> b <> [] ->
    one_write v id dt None None (Err EIoNotFound) (io_update io id dt b) /\
    forall x, one_write v id dt (Some x) (Some (Some b)) (Ok tt) (io_update io id dt b);
  cell_delete : forall id dt cur, dt < 65536 -> one_write v id dt cur (Some None) (Ok tt) (io_delete io id dt) }.
