(** What it means to leave memory alone, and the behaviour of callers who share memory with the
    library.  See P_Slices.v. *)
From stdpp Require Import gmap.
From Verif Require Import Bytes Go Uuid World Types Gcm Id D1 Io IoHist Sched Slices.
Local Open Scope bool_scope.
Local Open Scope N_scope.
Local Open Scope go_scope.

(** Memory changed at most in the cells of [P]; what was allocated later does not count. *)
Definition only_changed {A} (P : nat -> nat -> Prop) (h h' : heap A) : Prop :=
  (length h <= length h')%nat /\
  forall a, (a < length h)%nat ->
    length (cells h' a) = length (cells h a) /\
    forall i, ~ P a i -> cells h' a !! i = cells h a !! i.
(** The existing arrays are what they were. *)
Definition unchanged {A} (h h' : heap A) : Prop := only_changed (fun _ _ => False) h h'.

(** ** Calls on slices *)
(** The call, with the groups the slice holds in memory [h]. *)
Definition call_on (h : heap bytes) (c : slice_call) : d1_call :=
  match c with
  | SEncrypt tok obj s => CEncrypt tok obj (contents h s)
  | SAddGroups tok oid s => CAddGroups tok oid (contents h s)
  | SRemoveGroups tok oid s => CRemoveGroups tok oid (contents h s)
  | SCall c => c
  end.
(** The slice a call is given, and whether the call may write behind its last element. *)
Definition call_slice (c : slice_call) : option slice :=
  match c with SEncrypt _ _ s | SAddGroups _ _ s | SRemoveGroups _ _ s => Some s | SCall _ => None end.
Definition roomy (c : slice_call) : Prop :=
  match c with SEncrypt _ _ s => (sl_len s < sl_cap s)%nat | _ => False end.

(** Many calls at once on shared memory: one step of one of them, or of the adversary of Sched.v, or
    somebody else allocates memory. *)
Inductive exec_s {E S I A} (K : bytes -> Prop) :
  list (prog (heap E * world S I) A) -> heap E * world S I ->
  list (prog (heap E * world S I) A) -> heap E * world S I -> Prop :=
| xs_nil pool hw : exec_s K pool hw pool hw
| xs_step t X (f : heap E * world S I -> X * (heap E * world S I)) k pool hw pool' hw' :
    pool !! t = Some (Step f k) ->
    exec_s K (<[t := k (fst (f hw))]> pool) (snd (f hw)) pool' hw' -> exec_s K pool hw pool' hw'
| xs_adv pool h new w w1 pool' hw' : adversary K w w1 ->
    exec_s K pool (h ++ new, w1) pool' hw' -> exec_s K pool (h, w) pool' hw'.

(** Calls on any shared state, interleaved step by step. *)
Inductive interleaved {W A} : list (prog W A) -> W -> list (prog W A) -> W -> Prop :=
| il_nil pool w : interleaved pool w pool w
| il_step t X (f : W -> X * W) k pool w pool' w' :
    pool !! t = Some (Step f k) ->
    interleaved (<[t := k (fst (f w))]> pool) (snd (f w)) pool' w' -> interleaved pool w pool' w'.

(** ** Callers of storage providers *)
Inductive slice_op :=
| SPut (id : slice) (dt : N) (d : slice)
| SGet (id : slice) (dt : N)
| SUpdate (id : slice) (dt : N) (d : slice)
| SDelete (id : slice) (dt : N).
Inductive slice_reply := SDone (r : res unit) | SData (r : res slice).
Definition mem_do_s (o : slice_op) : prog (heap byte * gmap bytes slice) slice_reply :=
  match o with
  | SPut id dt d => let* r := mem_put_s id dt d in Ret (SDone r)
  | SGet id dt => let* r := mem_get_s id dt in Ret (SData r)
  | SUpdate id dt d => let* r := mem_update_s id dt d in Ret (SDone r)
  | SDelete id dt => let* r := mem_delete_s id dt in Ret (SDone r)
  end.
Definition bolt_do_s (room : nat -> list byte) (o : slice_op) : prog (heap byte * gmap bytes bytes) slice_reply :=
  match o with
  | SPut id dt d => let* r := bolt_put_s room id dt d in Ret (SDone r)
  | SGet id dt => let* r := bolt_get_s room id dt in Ret (SData r)
  | SUpdate id dt d => let* r := bolt_update_s room id dt d in Ret (SDone r)
  | SDelete id dt => let* r := bolt_delete_s room id dt in Ret (SDone r)
  end.
(** The call and the reply with the bytes the slices hold in memory [h]. *)
Definition op_on (h : heap byte) (o : slice_op) : io_op :=
  match o with
  | SPut id dt d => OPut (contents h id) dt (contents h d)
  | SGet id dt => OGet (contents h id) dt
  | SUpdate id dt d => OUpdate (contents h id) dt (contents h d)
  | SDelete id dt => ODelete (contents h id) dt
  end.
Definition reply_on (h : heap byte) (r : slice_reply) : io_reply :=
  match r with SDone r => RDone r | SData r => RData (res_map (contents h) r) end.
Definition op_id (o : slice_op) : slice := match o with SPut i _ _ | SGet i _ | SUpdate i _ _ | SDelete i _ => i end.
(** The buffers the call hands over. *)
Definition op_data (o : slice_op) : list slice := match o with SPut _ _ d | SUpdate _ _ d => [d] | _ => [] end.
Definition op_ok (h : heap byte) (o : slice_op) : Prop := sl_ok h (op_id o) /\ Forall (sl_ok h) (op_data o).
(** No buffer of the call reaches into the three cells behind the id, if the id's capacity does. *)
Definition op_apart (o : slice_op) : Prop :=
  let id := op_id o in
  (sl_len id + 3 <= sl_cap id)%nat ->
  Forall (fun d => sl_arr d = sl_arr id ->
            (sl_off d + sl_len d <= sl_off id + sl_len id)%nat \/ (sl_off id + sl_len id + 3 <= sl_off d)%nat) (op_data o).

(** A caller alternates calls that satisfy [ok] with arbitrary writes to memory, as far as [may] allows
    them given the buffers handed over so far.  The trace lists the calls, with what their buffers held
    when they were made, and the replies, with what the returned buffer held at that time. *)
Inductive client {P} (do : slice_op -> prog (heap byte * P) slice_reply) (ok : heap byte -> slice_op -> Prop)
  (may : list slice -> heap byte -> heap byte -> Prop) :
  list slice -> heap byte * P -> list (io_op * io_reply) -> heap byte * P -> Prop :=
| c_end kept x : client do ok may kept x [] x
| c_call kept o h p r h1 p1 tr x :
    ok h o -> run (do o) (h, p) = (r, (h1, p1)) ->
    client do ok may (op_data o ++ kept) (h1, p1) tr x ->
    client do ok may kept (h, p) ((op_on h o, reply_on h1 r) :: tr) x
| c_write kept h p h1 tr x : may kept h h1 -> client do ok may kept (h1, p) tr x -> client do ok may kept (h, p) tr x.
(** The caller may write anywhere / anywhere but into the buffers handed over. *)
Definition anywhere : list slice -> heap byte -> heap byte -> Prop := fun _ _ _ => True.
Definition not_into_kept : list slice -> heap byte -> heap byte -> Prop :=
  fun kept h h1 => Forall (fun s => contents h1 s = contents h s) kept.

(** ** Encryption in place *)
(** AES-256-GCM with a fresh nonce, on byte strings. *)
Definition aead_encrypt {S I} (e : env) (pt aad key : bytes) : prog (world S I) (res bytes) :=
  if negb (Nat.eqb (length key) keyLength) then Ret (Err EAesKeyLength)
  else let! nonce := get_bytes e (N.of_nat nonceLength) in lift (aes_gcm_encrypt pt aad key nonce).
(** The cells encryption may overwrite: those of the plaintext and the 28 behind, if they are within its
    capacity. *)
Definition in_place (pt : slice) (a i : nat) : Prop :=
  a = sl_arr pt /\ (sl_off pt <= i < sl_off pt + sl_len pt + Overhead)%nat /\ (sl_len pt + Overhead <= sl_cap pt)%nat.
(** The slice [s] does not reach into them. *)
Definition clear_of (pt s : slice) : Prop :=
  forall i, (i < sl_len s)%nat -> ~ in_place pt (sl_arr s) (sl_off s + i).
