(** C81: a call takes a bounded number of steps, whatever others do meanwhile.  Only property theorems here; the
    definitions are in ProgressSpec.v and the proofs in Progress.v and ProgressDemo.v. *)
From stdpp Require Import gmap.
From Verif Require Import Bytes Go Types World Io Id D1 Spec Demo Standalone StandaloneDemo LibDemo ProgressSpec Progress ProgressDemo.
Local Open Scope nat_scope.

(** With a storage whose calls take at most [k] steps and an identity provider that takes at most [m] to look up
    the token, an object call is over after [m] steps, [k] for each of its calls to the storage and a fixed
    number of others: it never tries again and never waits, although others do to the storage whatever they
    like between any two of its steps. *)
Theorem C81_object_calls {S I} (e : env) (P : world S I -> Prop) (k m : nat) (io : provider S) (idp : bytes -> prog (world S I) (res identity)) (d : d1) (c : d1_call)
  (storage : prompt k io) (lookup : forall tok, call_token c = Some tok -> at_most P m (idp tok)) :
  at_most P (m + storage_calls c * k + other_steps c) (d1_aes e io idp d c).
Proof. exact (object_bound e P k io storage idp m d c lookup). Qed.
Print Assumptions C81_object_calls.

(** The same for the calls of the identity provider, as long as no user that is read is in more than [n] groups. *)
Theorem C81_identity_calls {S I} (e : env) (P : world S I -> Prop) (k n : nat) (io : provider S) (L : sa_keys) (c : sa_call)
  (storage : prompt k io) (groups : groups_at_most e io L P n) :
  at_most P (id_storage_calls n c * k + id_other_steps n c) (sa_aes e io L c).
Proof. exact (identity_bound e P k io storage L n groups c). Qed.
Print Assumptions C81_identity_calls.

(** And for object calls when the Standalone is the identity provider. *)
Theorem C81_assembled {S I} (e : env) (P : world S I -> Prop) (k n : nat) (io : provider S) (d : d1) (L : sa_keys) (c : d1_call)
  (storage : prompt k io) (groups : groups_at_most e io L P n) :
  at_most P (((1 + n) + storage_calls c) * k + ((3 + n) + other_steps c)) (d1_aes e io (sa_idp e io L) d c).
Proof. exact (assembled_bound e P k io storage d L n groups c). Qed.
Print Assumptions C81_assembled.

(** The two storages that come with the library are such storages. *)
Theorem C81_storages : prompt 2 Mem /\ prompt 1 Bolt.
Proof. exact (conj mem_prompt bolt_prompt). Qed.
Print Assumptions C81_storages.

(** Calls that take exactly the steps they may take: a GetIdentity of somebody who is in one group, and an Encrypt. *)
Example C81_identity_case : prompt 1 Bolt /\ groups_at_most sa_env Bolt lib_sa (fun w : world (gmap bytes bytes) unit => w_io w = w_io pg_w) 1 /\ exists i w', size (i_groups i) = 1 /\
  beside (fun w : world (gmap bytes bytes) unit => w_io w = w_io pg_w) (id_storage_calls 1 (SGetIdentity lib_tok) * 1 + id_other_steps 1 (SGetIdentity lib_tok))
    (sa_aes sa_env Bolt lib_sa (SGetIdentity lib_tok)) pg_w (Ret (Ok (SRIdentity i))) w'.
Proof. exact (conj bolt_prompt pg_identity). Qed.
Example C81_object_case : (forall tok, at_most (fun _ : world (gmap bytes bytes) unit => True) 0 (demo_idp tok)) /\ exists oid w',
  beside (fun _ => True) (0 + storage_calls (CEncrypt tok_alice demo_obj []) * 1 + other_steps (CEncrypt tok_alice demo_obj []))
    (d1_aes demo_env Bolt demo_idp demo_d1 (CEncrypt tok_alice demo_obj [])) demo_w (Ret (Ok (ROid oid))) w'.
Proof. exact (conj (fun tok => most_ret _ 0 _) pg_encrypt). Qed.
