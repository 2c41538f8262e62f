(** The whole library put together: a D1 and a SecureIndex whose identity provider is a Standalone, all
    three over the same storage. *)
From stdpp Require Import gmap.
From Verif Require Import Bytes Go World Id D1 Authority Standalone StandaloneSpec IdAuthority Index IndexSpec IndexConcSpec.
Local Open Scope N_scope.

(** The keys of a D1 and a SecureIndex (key/key.go:25-38) and of a Standalone (id/standalone.go:51-56). *)
Record lib := mkLib { l_d1 : d1; l_iek : bytes; l_sa : sa_keys }.
Inductive lib_reply := LObject (r : res d1_reply) | LIndex (r : res ix_reply) | LIdentity (r : res sa_reply).

Section Lib.
  Context {S I : Type} (e : env) (io : provider S) (L : lib) (fuel : nat).
  Notation W := (world S I).
  Context (ds : list d1_call) (is : list ix_call) (ss : list sa_call).
  (** All the calls made, of any number of callers, none of them begun: object calls first, then index
      calls, then calls of the identity provider (the order is that of their numbers, not of their
      execution).  New(keys, io, idProvider), d1.go:66-99, and NewSecureIndex, index/index.go:59-75, get the
      Standalone's GetIdentity, id/standalone.go:91-129, as identity provider, as in example_basic_test.go. *)
  Definition lib_pool : list (prog W lib_reply) :=
    map (fun c => bind (d1_aes e io (sa_idp e io (l_sa L)) (l_d1 L) c) (fun r => Ret (LObject r))) ds ++
    map (fun c => bind (ix_do e io (sa_idp e io (l_sa L)) (l_iek L) fuel c) (fun r => Ret (LIndex r))) is ++
    map (fun c => bind (sa_aes e io (l_sa L) c) (fun r => Ret (LIdentity r))) ss.
  (** The keys in use: the configured ones, and those the index derives for its keywords. *)
  Definition lib_key (x : bytes) : Prop := d1_key (l_d1 L) x \/ ix_key_of (l_iek L) is x \/ sa_key (l_sa L) x.
  (** No key is used by two of the three, and users and groups have different keys. *)
  Record keys_apart : Prop := mkKeysApart {
    ka_d1_sa : forall x, d1_key (l_d1 L) x -> sa_key (l_sa L) x -> False;
    ka_d1_ix : forall x, d1_key (l_d1 L) x -> ix_key_of (l_iek L) is x -> False;
    ka_ix_sa : forall x, ix_key_of (l_iek L) is x -> sa_key (l_sa L) x -> False;
    ka_users_groups : s_uek (l_sa L) <> s_gek (l_sa L) }.

  (** In a pool as it stands: what has been answered to the calls of each kind, by number. *)
  Context (pool : list (prog W lib_reply)).
  Definition said_object (t : nat) (r : res d1_reply) : Prop := (t < length ds)%nat /\ pool !! t = Some (Ret (LObject r)).
  Definition said_index (t : nat) (r : res ix_reply) : Prop := (t < length is)%nat /\ pool !! (length ds + t)%nat = Some (Ret (LIndex r)).
  Definition said_identity (t : nat) (r : res sa_reply) : Prop := (t < length ss)%nat /\ pool !! (length ds + length is + t)%nat = Some (Ret (LIdentity r)).
  Definition object_made (t : nat) (s : stamp) : Prop := forall r, said_object t r -> stamped s r.
  Definition identity_made (t : nat) (s : sa_stamp) : Prop := forall r, said_identity t r -> sa_stamped s r.
  (** The identities tokens stand for, and what callers were granted, all in terms of the calls made. *)
  Definition lib_known : bytes -> Prop := known e ss identity_made.
  Definition lib_logged_in : bytes -> bytes -> Prop := logged_in e ss identity_made.
  Definition lib_resolves : bytes -> identity -> Prop := resolves e ss identity_made.
  Definition lib_granted : Uuid.uuid -> bytes -> Prop := granted ds lib_resolves object_made.
  Definition lib_written : Uuid.uuid -> Types.object -> Prop := written ds lib_resolves object_made.
End Lib.
