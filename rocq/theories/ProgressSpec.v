(** How many steps a call takes while others run beside it. *)
From stdpp Require Import gmap.
From Verif Require Import Bytes Go Types World D1 Standalone.

(** A call runs beside others: [beside P n p w p' w'] when [n] steps of its own have taken it from [p] to
    [p'].  Between any two of them others may turn the world into any other; [P] holds of the worlds in which
    it takes its steps. *)
Inductive beside {W A} (P : W -> Prop) : nat -> prog W A -> W -> prog W A -> W -> Prop :=
| bs_nil p w : beside P 0 p w p w
| bs_others n p w w1 p' w' : beside P n p w1 p' w' -> beside P n p w p' w'
| bs_step n X (f : W -> X * W) q w p' w' : P w ->
    beside P n (q (fst (f w))) (snd (f w)) p' w' -> beside P (S n) (Step f q) w p' w'.
(** It takes at most [b] steps: nothing others do makes it take more, so after [b] steps it has answered. *)
Definition at_most {W A} (P : W -> Prop) (b : nat) (p : prog W A) : Prop :=
  forall n w p' w', beside P n p w p' w' -> (n <= b)%nat.

(** A storage whose calls take at most [k] steps. *)
Definition prompt {S} (k : nat) (io : provider S) : Prop := forall id dt d,
  at_most (fun _ => True) k (io_put io id dt d) /\ at_most (fun _ => True) k (io_get io id dt) /\
  at_most (fun _ => True) k (io_update io id dt d) /\ at_most (fun _ => True) k (io_delete io id dt).

(** The calls an object call makes to the storage, *)
Definition storage_calls (c : d1_call) : nat :=
  match c with
  | CEncrypt _ _ _ => 2
  | CUpdate _ _ _ => 3
  | CDecrypt _ _ => 2
  | CDelete _ _ => 3
  | CAddGroups _ _ _ | CRemoveGroups _ _ _ => 2
  | CGetAccessGroups _ _ | CAuthorize _ _ => 1
  | CCreateToken _ | CGetTokenContents _ => 0
  end.
(** and its other steps: one for a new id, three for a Cryptor.Encrypt (key, nonce, the rest), one for a
    Cryptor.Decrypt and one for a look at the clock. *)
Definition other_steps (c : d1_call) : nat :=
  match c with
  | CEncrypt _ _ _ => 7
  | CUpdate _ _ _ => 7
  | CDecrypt _ _ => 2
  | CAddGroups _ _ _ | CRemoveGroups _ _ _ | CCreateToken _ => 4
  | CDelete _ _ | CGetAccessGroups _ _ | CAuthorize _ _ => 1
  | CGetTokenContents _ => 2
  end.
(** The same for a call of the identity provider when no user is in more than [n] groups.  Whoever shows a
    token is looked up: one call for the user and one for each of their groups. *)
Definition id_storage_calls (n : nat) (c : sa_call) : nat :=
  match c with
  | SNewUser _ | SLogin _ _ => 1
  | SChangePassword _ _ => 2
  | SGetIdentity _ => 1 + n
  | SDeleteUser _ _ => (1 + n) + 1
  | SAddUser _ _ _ | SRemoveUser _ _ _ => (1 + n) + 2
  | SNewGroup _ _ => (1 + n) + 3
  end.
Definition id_other_steps (n : nat) (c : sa_call) : nat :=
  match c with
  | SNewUser _ => 6
  | SLogin _ _ => 5
  | SChangePassword _ _ => 6
  | SGetIdentity _ | SDeleteUser _ _ => 3 + n
  | SAddUser _ _ _ | SRemoveUser _ _ _ => (3 + n) + 4
  | SNewGroup _ _ => (3 + n) + 8
  end.
(** Whatever user is read, it is in at most [n] groups. *)
Definition groups_at_most {S I} (e : env) (io : provider S) (L : sa_keys) (P : world S I -> Prop) (n : nat) : Prop :=
  forall uid m w u w', beside P m (get_user io (Cryptor.aes_cryptor e (s_uek L)) uid) w (Ret (Ok u)) w' ->
    (match u_groups u with Some s => size s | None => 0 end <= n)%nat.
