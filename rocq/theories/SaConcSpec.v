(** Identity-provider calls that run at the same time: which of them may overlap, and what is asked of them. *)
From stdpp Require Import gmap.
From Verif Require Import Bytes Go Json Uuid Time Types World Cryptor Id Data Standalone StandaloneSpec IoSpec D1ConcSpec.
Local Open Scope bool_scope.
Local Open Scope N_scope.

(** ** What an observer sees: calls being made, numbered from 0 in the order they are made, and replies. *)
Inductive sa_obs :=
| ICall (c : sa_call)
| IReply (t : nat) (r : res sa_reply).
Fixpoint id_calls (tr : list sa_obs) : list sa_call :=
  match tr with [] => [] | ICall c :: tr => c :: id_calls tr | IReply _ _ :: tr => id_calls tr end.

(** The token a call is made with, and the user id it names. *)
Definition sa_token (c : sa_call) : option bytes :=
  match c with
  | SAddUser tok _ _ | SRemoveUser tok _ _ | SDeleteUser tok _ | SNewGroup tok _ | SGetIdentity tok => Some tok
  | _ => None
  end.
Definition sa_names (c : sa_call) : option bytes :=
  match c with
  | SLogin uid _ | SChangePassword uid _ | SAddUser _ uid _ | SRemoveUser _ uid _ | SDeleteUser _ uid => Some uid
  | _ => None
  end.
(** The call is made with a token that a LoginUser for [uid] has returned. *)
Definition carries (tr : list sa_obs) (c : sa_call) (uid : bytes) : Prop :=
  exists tok t pw tok' exp, sa_token c = Some tok /\ nth_error (id_calls tr) t = Some (SLogin uid pw) /\
    In (IReply t (Ok (SRToken tok' exp))) tr /\ same_token tok' tok.

(** ** Which calls must not overlap *)
(** Calls that change the entry of a user: their password, their groups, or all of it.  NewGroup adds
    the caller to the group. *)
Definition changes (tr : list sa_obs) (c : sa_call) (uid : bytes) : Prop :=
  match c with
  | SChangePassword u _ | SAddUser _ u _ | SRemoveUser _ u _ | SDeleteUser _ u => u = uid
  | SNewGroup _ _ => carries tr c uid
  | _ => False
  end.
(** Calls that change something on behalf of a user. *)
Definition acts_for (tr : list sa_obs) (c : sa_call) (uid : bytes) : Prop :=
  match c with
  | SAddUser _ _ _ | SRemoveUser _ _ _ | SDeleteUser _ _ | SNewGroup _ _ => carries tr c uid
  | _ => False
  end.
(** Calls after which the old password does not log in any more. *)
Definition repasses (c : sa_call) (uid : bytes) : Prop :=
  match c with SChangePassword u _ | SDeleteUser _ u => u = uid | _ => False end.
Definition logs_in (c : sa_call) (uid : bytes) : Prop := match c with SLogin u _ => u = uid | _ => False end.
(** Two calls are at odds if one changes the entry of a user and the other changes it too or acts on
    behalf of that user, or if one changes the password of a user and the other logs that user in.
    So NewUser and GetIdentity are never at odds with anything. *)
Definition conflicts (tr : list sa_obs) (c c' : sa_call) : Prop :=
  exists uid, (changes tr c uid /\ (changes tr c' uid \/ acts_for tr c' uid)) \/ (repasses c uid /\ logs_in c' uid).
Definition at_odds (tr : list sa_obs) (c c' : sa_call) : Prop := conflicts tr c c' \/ conflicts tr c' c.
(** When a call is made, the earlier calls it is at odds with have been answered. *)
Definition orderly (tr : list sa_obs) : Prop :=
  forall tr1 c tr2, tr = tr1 ++ ICall c :: tr2 ->
  forall t c', nth_error (id_calls tr1) t = Some c' -> at_odds tr1 c' c -> exists r, In (IReply t r) tr1.

(** ** Random ids and tokens *)
(** The id has been returned by a NewUser or NewGroup. *)
Definition returned (tr : list sa_obs) (id : bytes) : Prop :=
  exists t, (exists pw, In (IReply t (Ok (SRUser id pw))) tr) \/ In (IReply t (Ok (SRGroup id))) tr.
(** Nobody names a user id that the random source yields in that time before it has been returned. *)
Definition no_guess (e : env) (n n' : nat) (tr : list sa_obs) : Prop :=
  forall tr1 c tr2 i b, tr = tr1 ++ ICall c :: tr2 -> (n <= i < n')%nat -> draw e i 16 = Ok b ->
  sa_names c = Some (uuid_text (uuid_v4 b)) -> returned tr1 (uuid_text (uuid_v4 b)).
(** The token decrypts under the token key. *)
Definition accepted (k : sa_keys) (tok : bytes) : Prop :=
  exists st aad pt, token_from_string tok = Ok st /\ enc_time (st_exp st) = Some aad /\
    aes_open (s_tek k) (print aad) (slice_bytes (st_wk st)) (slice_bytes (st_ct st)) = Ok pt.
(** Tokens are not forged: one that decrypts is used only after a LoginUser has returned it. *)
Definition unforged (k : sa_keys) (tr : list sa_obs) : Prop :=
  forall tr1 c tr2 tok, tr = tr1 ++ ICall c :: tr2 -> sa_token c = Some tok -> accepted k tok -> exists uid, carries tr1 c uid.
(** What Go's types give: scopes are 64 bits wide. *)
Definition scopes_wf (tr : list sa_obs) : Prop :=
  forall c, In c (id_calls tr) -> match c with SNewUser l | SNewGroup _ l => Forall (fun s => s < 2 ^ 64) l | _ => True end.

(** ** One order for calls that overlap *)
Record sa_did := mkSaDone { sd_call : nat; sd_event : sa_event }.
(** What the environment contributes to a call is what it may contribute: the time is a reading of the
    clock, the random bytes are draws of the random source, one after the other but not necessarily in
    succession, and it fails only if some draw fails. *)
Definition outside_ok (e : env) (x : surroundings) : Prop :=
  (exists n, x_now x = clock e n) /\
  (exists pos : nat -> nat, (forall i, (pos i < pos (S i))%nat) /\ forall i n, x_draw x i n = draw e (pos i) n) /\
  (x_rng_fails x -> exists i n, draw e i n = Err ERandom) /\ x_hash x = pwhash e.
(** The calls observed act like the events of [ds], one after the other in this order: each acts at most
    once; replies are as in [ds]; and a call made after another was answered comes later: whatever was
    answered in a first part [tr1] of the observations acts before whatever was not yet called then. *)
Definition sa_linearizes (e : env) (d : directory) (tr : list sa_obs) (ds : list sa_did) (d' : directory) : Prop :=
  sa_history d (map sd_event ds) d' /\ NoDup (map sd_call ds) /\
  (forall x, In x ds -> nth_error (id_calls tr) (sd_call x) = Some (sv_call (sd_event x)) /\ outside_ok e (sv_x (sd_event x))) /\
  (forall t r, In (IReply t r) tr -> exists x, In x ds /\ sd_call x = t /\ sv_reply (sd_event x) = r) /\
  (forall tr1 tr2, tr = tr1 ++ tr2 -> exists ds1 ds2, ds = ds1 ++ ds2 /\
     (forall t r, In (IReply t r) tr1 -> In t (map sd_call ds1)) /\
     (forall t, In t (map sd_call ds1) -> (t < length (id_calls tr1))%nat)).

(** ** How they run *)
Section Run.
  Context {S I : Type} (e : env) (v : view S).
  Notation W := (world S I).
  (** Users and groups are not touched, and the random source goes on. *)
  Definition spares (w w' : W) : Prop :=
    v_inv v (w_io w') /\ (w_draws w <= w_draws w')%nat /\
    forall id dt, dt = DataTypeSealedUser \/ dt = DataTypeSealedGroup -> v_map v (w_io w') id dt = v_map v (w_io w) id dt.
  (** Storage without users and groups. *)
  Definition no_accounts (w : W) : Prop :=
    v_inv v (w_io w) /\ forall id dt, dt = DataTypeSealedUser \/ dt = DataTypeSealedGroup -> v_map v (w_io w) id dt = None.
  Context (io : provider S) (k : sa_keys).
  (** The methods of one Standalone value, id/standalone.go:91-328, called from any number of goroutines:
      Standalone holds no lock and no state of its own (id/standalone.go:58-67).  Calls are made at any
      time, their steps are interleaved in any way, and in between anything may happen except to users and groups. *)
  Inductive sa_conc : list (prog W (res sa_reply)) -> W -> list sa_obs -> list (prog W (res sa_reply)) -> W -> Prop :=
  | ic_nil pool w : sa_conc pool w [] pool w
  | ic_env pool w w1 tr pool' w' : spares w w1 -> sa_conc pool w1 tr pool' w' -> sa_conc pool w tr pool' w'
  | ic_call c pool w tr pool' w' : sa_conc (pool ++ [sa_aes e io k c]) w tr pool' w' -> sa_conc pool w (ICall c :: tr) pool' w'
  | ic_step t X (f : W -> X * W) q pool w tr pool' w' : pool !! t = Some (Step f q) ->
      sa_conc (<[t := q (fst (f w))]> pool) (snd (f w)) tr pool' w' -> sa_conc pool w tr pool' w'
  | ic_reply t r pool w tr pool' w' : pool !! t = Some (Ret r) -> sa_conc pool w tr pool' w' -> sa_conc pool w (IReply t r :: tr) pool' w'.
End Run.
