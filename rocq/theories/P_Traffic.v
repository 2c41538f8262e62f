(** Property C68: what storage gets to see.

    [recording io] (TrafficSpec.v) is the storage [io] with every request noted down first.  [recorded K pool
    w pool' w']: the calls ran on it, any number of them, of D1, the index and the identity provider,
    interleaved step by step with each other and with an adversary, who may do anything, such as rewrite the
    storage, except change the record.  [w_log] records every encryption. *)
From stdpp Require Import gmap.
From Verif Require Import Bytes Go World Io IoSpec Sched Types Id D1 Standalone Index Lib Demo SaConcDemo LibDemo TrafficSpec Traffic TrafficDemo.
Local Open Scope N_scope.

(** Every request is [allowed]: what it writes is the ciphertext of an encryption of this run, under the key
    for that kind of data, with nothing else but the id, the wrapped data key and, for an object, its
    associated data; index entries are found under KMAC tags; object ids are those the callers named. *)
Theorem C68_requests : forall {S I} (e : env) (io : provider S) (L : lib) (fuel : nat) (ds : list d1_call) (is : list ix_call) (ss : list sa_call)
    (w w' : world (S * list request) I) pool',
  recorded (lib_key L is) (lib_pool e (recording io) L fuel ds is ss) w pool' w' ->
  exists made requests, w_log w' = made ++ w_log w /\ snd (w_io w') = snd (w_io w) ++ requests /\
    Forall (allowed L ds is (fun x => In x made)) requests.
Proof. intros S I e io L fuel ds is ss w w' pool'. exact (traffic e L ds is io fuel ss w pool' w'). Qed.
(** Storage that records is storage: what is proved of the library on any map holds on it too. *)
Theorem C68_recording_is_storage : forall {S} F (v : view S) io, io_spec F v io -> io_spec F (under v) (recording io).
Proof. intros S. exact recording_spec. Qed.

(** NewUser makes one request, to store the sealed record. *)
Example C68_case : exists uid pw w' data x,
  recorded (lib_key lib_demo []) (lib_pool ov_env (recording Mem) lib_demo 9 [] [] [SNewUser [ScopeAll]]) rec_w [Ret (LIdentity (Ok (SRUser uid pw)))] w' /\
  snd (w_io w') = snd (w_io rec_w) ++ [QPut uid DataTypeSealedUser data] /\ w_log w' = [x] ++ w_log rec_w.
Proof. exact traffic_demo. Qed.

Print Assumptions C68_requests.
Print Assumptions C68_recording_is_storage.
Print Assumptions C68_case.
