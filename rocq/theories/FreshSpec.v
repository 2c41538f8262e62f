(** What the library makes of the random source.  The draws of the process are numbered; [draw e n len] is
    what draw number [n] gives. *)
From stdpp Require Import gmap.
From Verif Require Import Bytes Go Uuid Base64 World Sched Gcm Kwp Cryptor Id D1 Password Standalone Index Lib.
Local Open Scope N_scope.

(** The entry [x] is what AES-GCM and key wrapping make of its plaintext with draw [fst n] as key and draw
    [snd n] as nonce. *)
Definition made_from (e : env) (n : nat * nat) (x : entry) : Prop :=
  exists key nonce, draw e (fst n) 32 = Ok key /\ draw e (snd n) 12 = Ok nonce /\
    aes_gcm_encrypt (e_pt x) (e_aad x) key nonce = Ok (e_ct x) /\ aes_kwp_wrap (e_kek x) key = Ok (e_wk x).

(** A new id, a new password. *)
Definition id_from (e : env) (n : nat) (u : uuid) : Prop := exists b, draw e n 16 = Ok b /\ u = uuid_v4 b.
Definition password_from (e : env) (n : nat) (p : bytes) : Prop := exists b, draw e n 32 = Ok b /\ p = b64url_encode b.
(** The draws a reply is made of. *)
Definition reply_from (e : env) (ns : list nat) (r : lib_reply) : Prop :=
  match r with
  | LObject (Ok (ROid oid)) => exists n, ns = [n] /\ id_from e n oid
  | LIdentity (Ok (SRUser uid p)) => exists n m u, ns = [n; m] /\ id_from e n u /\ uid = uuid_text u /\ password_from e m p
  | LIdentity (Ok (SRPassword p)) => exists m, ns = [m] /\ password_from e m p
  | LIdentity (Ok (SRGroup gid)) => exists n u, ns = [n] /\ id_from e n u /\ gid = uuid_text u
  | _ => ns = []
  end.

(** Any number of calls, interleaved step by step with each other and with an adversary who controls
    everything but the numbering of the draws: others draw too, but no draw is given twice. *)
Inductive steady {S I A} (K : bytes -> Prop) : list (prog (world S I) A) -> world S I -> list (prog (world S I) A) -> world S I -> Prop :=
| sd_nil pool w : steady K pool w pool w
| sd_step t X (f : world S I -> X * world S I) k pool w pool' w' :
    pool !! t = Some (Step f k) -> steady K (<[t := k (fst (f w))]> pool) (snd (f w)) pool' w' -> steady K pool w pool' w'
| sd_adv pool w w1 pool' w' : adversary K w w1 -> (w_draws w <= w_draws w1)%nat -> steady K pool w1 pool' w' -> steady K pool w pool' w'.

Definition both (l : list (nat * nat)) : list nat := flat_map (fun n => [fst n; snd n]) l.
(** Among the draws of the run no 32 bytes come twice; no two draws make the same id. *)
Definition keys_once (e : env) (a b : nat) : Prop :=
  forall i j x, (a <= i < b)%nat -> (a <= j < b)%nat -> draw e i 32 = Ok x -> draw e j 32 = Ok x -> i = j.
Definition ids_once (e : env) (a b : nat) : Prop :=
  forall i j u, (a <= i < b)%nat -> (a <= j < b)%nat -> id_from e i u -> id_from e j u -> i = j.
(** The id and the password in a reply. *)
Definition new_id (r : lib_reply) : option bytes :=
  match r with
  | LObject (Ok (ROid oid)) => Some (uuid_text oid)
  | LIdentity (Ok (SRUser id _)) | LIdentity (Ok (SRGroup id)) => Some id
  | _ => None
  end.
Definition new_password (r : lib_reply) : option bytes :=
  match r with LIdentity (Ok (SRUser _ p)) | LIdentity (Ok (SRPassword p)) => Some p | _ => None end.
