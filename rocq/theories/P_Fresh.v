(** Property C67: everything random in the library is its own draw from the random source.

    [steady K pool w pool' w'] (FreshSpec.v): calls of all three components, any number of them, began in the
    world [w] and were interleaved step by step, with each other and with an adversary who may change
    storage, move the clock, draw from the source and encrypt under keys other than the library's [K], but
    cannot make the source give a draw a second time.  [pool'] is what is left of the calls, [Ret r] for one
    that has replied; not every call need have finished.  [w_log] records every encryption made, with the key
    it was made under, its plaintext and what was returned. *)
From stdpp Require Import gmap.
From Verif Require Import Bytes Go World Io Sched Kwp D1 Standalone Index Lib Demo SaConcDemo LibDemo FreshSpec Fresh FreshDemo.

Section Draws.
  Context {S I : Type} (e : env) (io : provider S) (L : lib) (fuel : nat) (ds : list d1_call) (is : list ix_call) (ss : list sa_call).
  Context (w w' : world S I) (pool' : list (prog (world S I) lib_reply)) (run : steady (lib_key L is) (lib_pool e io L fuel ds is ss) w pool' w').

  (** The encryptions of the run are the library's [own] and those of [others] under keys that are none of the
      library's.  Own encryption number i used draw [fst (ns i)] as data key and draw [snd (ns i)] as nonce; the
      ids and passwords in the reply of call t are the draws [rs t].  No draw is used for two purposes, or
      twice for one, and none was given before the run. *)
  Theorem C67_one_use_each : exists own others ns rs,
    w_log w' ≡ₚ own ++ others ++ w_log w /\ Forall (fun x => ~ lib_key L is (e_kek x)) others /\
    Forall2 (made_from e) ns own /\ Forall2 (fun l p => forall r, p = Ret r -> reply_from e l r) rs pool' /\
    base.NoDup (both ns ++ concat rs) /\ Forall (fun n => w_draws w <= n < w_draws w')%nat (both ns ++ concat rs).
  Proof. exact (one_use e io L fuel ds is ss w w' pool' run). Qed.

  (** So, if the source gives no 32 bytes twice, no two ciphertexts are made with the same data key (and a
      nonce never meets the same key again). *)
  Theorem C67_no_key_twice : forall new, w_log w' = new ++ w_log w -> keys_once e (w_draws w) (w_draws w') ->
    forall a b x y, new !! a = Some x -> new !! b = Some y -> lib_key L is (e_kek x) -> lib_key L is (e_kek y) -> a <> b ->
    exists kx ky, aes_kwp_unwrap (e_kek x) (e_wk x) = Ok kx /\ aes_kwp_unwrap (e_kek y) (e_wk y) = Ok ky /\ kx <> ky.
  Proof. exact (no_key_twice e io L fuel ds is ss w w' pool' run). Qed.
  (** If no two draws make the same id, no two calls reply with the same object, user or group id. *)
  Theorem C67_ids_differ : ids_once e (w_draws w) (w_draws w') -> forall t t' r r' x, pool' !! t = Some (Ret r) -> pool' !! t' = Some (Ret r') ->
    new_id r = Some x -> new_id r' = Some x -> t = t'.
  Proof. exact (ids_differ_all e io L fuel ds is ss w w' pool' run). Qed.
  (** If the source gives no 32 bytes twice, no two calls hand out the same password. *)
  Theorem C67_passwords_differ : keys_once e (w_draws w) (w_draws w') -> forall t t' r r' x, pool' !! t = Some (Ret r) -> pool' !! t' = Some (Ret r') ->
    new_password r = Some x -> new_password r' = Some x -> t = t'.
  Proof. exact (passwords_differ_all e io L fuel ds is ss w w' pool' run). Qed.
End Draws.

(** Two new users, and two tokens made by overlapping calls. *)
Example C67_case : exists u1 p1 u2 p2 s1 s2 x y old w',
  steady (lib_key lib_demo []) (lib_pool ov_env Mem lib_demo 9 fresh_ds [] fresh_ss) demo_w
    [Ret (LObject (Ok (RToken s1))); Ret (LObject (Ok (RToken s2))); Ret (LIdentity (Ok (SRUser u1 p1))); Ret (LIdentity (Ok (SRUser u2 p2)))] w' /\
  w_log w' = (y :: x :: old) ++ w_log demo_w /\ lib_key lib_demo [] (e_kek x) /\ lib_key lib_demo [] (e_kek y) /\
  keys_once ov_env (w_draws demo_w) (w_draws w') /\ ids_once ov_env (w_draws demo_w) (w_draws w').
Proof. exact fresh_demo. Qed.

Print Assumptions C67_one_use_each.
Print Assumptions C67_no_key_twice.
Print Assumptions C67_ids_differ.
Print Assumptions C67_passwords_differ.
Print Assumptions C67_case.
