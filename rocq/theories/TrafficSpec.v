(** What storage gets to see: storage that records the requests made of it, and which requests the library
    makes. *)
From stdpp Require Import gmap.
From Verif Require Import Bytes Go Uuid Json Types World Sched Kmac Cryptor Data Id D1 Standalone Index IndexSpec IndexConcSpec Lib Spec.
Local Open Scope N_scope.

Inductive request :=
| QPut (id : bytes) (dt : N) (data : bytes)
| QGet (id : bytes) (dt : N)
| QUpdate (id : bytes) (dt : N) (data : bytes)
| QDelete (id : bytes) (dt : N).

(** Any storage [io], with every request recorded before it is carried out. *)
Section Recording.
  Context {S : Type}.
  Notation R := (S * list request)%type.
  Definition note (q : request) : prog R unit := act (fun s => (tt, (fst s, snd s ++ [q]))).
  Fixpoint inside {A} (p : prog S A) : prog R A :=
    match p with
    | Ret a => Ret a
    | Step f k => Step (fun s => (fst (f (fst s)), (snd (f (fst s)), snd s))) (fun x => inside (k x))
    end.
  Definition recording (io : provider S) : provider R := mkProvider
    (fun id dt d => bind (note (QPut id dt d)) (fun _ => inside (io_put io id dt d)))
    (fun id dt => bind (note (QGet id dt)) (fun _ => inside (io_get io id dt)))
    (fun id dt d => bind (note (QUpdate id dt d)) (fun _ => inside (io_update io id dt d)))
    (fun id dt => bind (note (QDelete id dt)) (fun _ => inside (io_delete io id dt))).
  (** Any number of calls, interleaved step by step with each other and with an adversary, who may do anything
      but change the record. *)
  Inductive recorded {I A} (K : bytes -> Prop) : list (prog (world R I) A) -> world R I -> list (prog (world R I) A) -> world R I -> Prop :=
  | rd_nil pool w : recorded K pool w pool w
  | rd_step t X (f : world R I -> X * world R I) k pool w pool' w' :
      pool !! t = Some (Step f k) -> recorded K (<[t := k (fst (f w))]> pool) (snd (f w)) pool' w' -> recorded K pool w pool' w'
  | rd_adv pool w w1 pool' w' : adversary K w w1 -> snd (w_io w1) = snd (w_io w) -> recorded K pool w1 pool' w' -> recorded K pool w pool' w'.
End Recording.

Section Requests.
  Context (L : lib) (ds : list d1_call) (is : list ix_call).
  (** The id is a KMAC tag, under a key derived from the index key and a keyword; [kek] is the encryption
      key derived from the two. *)
  Definition label_of (id kek : bytes) : Prop := exists c n k1,
    In c is /\ kmackdf 32 (l_iek L) (str "label") [ix_keyword c] = Ok k1 /\ kmackdf 32 (l_iek L) (str "id") [ix_keyword c] = Ok kek /\
    tag k1 (Some (uvarint n)) = Ok id.
  (** The object a call brings along. *)
  Definition brings (c : d1_call) (o : object) : Prop :=
    match c with CEncrypt _ o' _ | CUpdate _ _ o' => o' = o | _ => False end.
  (** The data written under [id] are nothing but the ciphertext of the encryption [x], under the key for
      this kind of data; and, of the encryption's wrapped data key unless it is an object, the associated data
      of an object, and the id. *)
  Definition carries (x : entry) (id : bytes) (dt : N) (data : bytes) : Prop :=
    (dt = DataTypeSealedObject /\ e_kek x = d_kek (l_d1 L) /\ exists c o, In c ds /\ brings c o /\ e_pt x = print (jbytes (o_pt o)) /\
       data = print (JObj [(str "Ciphertext", jbytes (Some (e_ct x))); (str "AssociatedData", jbytes (o_ad o)); (str "OID", JStr (uuid_text id))])) \/
    (dt = DataTypeSealedAccess /\ e_kek x = d_aek (l_d1 L) /\
       data = print (JObj [(str "OID", JStr (uuid_text id)); (str "Ciphertext", jbytes (Some (e_ct x))); (str "WrappedKey", jbytes (Some (e_wk x)))])) \/
    (dt = DataTypeSealedUser /\ e_kek x = s_uek (l_sa L) /\
       data = print (JObj [(str "UID", JStr id); (str "Ciphertext", jbytes (Some (e_ct x))); (str "WrappedKey", jbytes (Some (e_wk x)))])) \/
    (dt = DataTypeSealedGroup /\ e_kek x = s_gek (l_sa L) /\
       data = print (JObj [(str "GID", JStr id); (str "Ciphertext", jbytes (Some (e_ct x))); (str "WrappedKey", jbytes (Some (e_wk x)))])) \/
    (dt = DataTypeSealedNode /\ label_of id (e_kek x) /\
       data = print (JObj [(str "Ciphertext", jbytes (Some (e_ct x))); (str "WrappedKey", jbytes (Some (e_wk x)))])).
  (** The id in a request that reads, overwrites or deletes. *)
  Definition names (id : bytes) (dt : N) : Prop :=
    (dt = DataTypeSealedObject \/ dt = DataTypeSealedAccess -> exists c, In c ds /\ call_oid c = Some id) /\
    (dt = DataTypeSealedNode -> exists kek, label_of id kek).
  Definition allowed (made : entry -> Prop) (q : request) : Prop :=
    match q with
    | QPut id dt data => exists x, made x /\ carries x id dt data
    | QUpdate id dt data => (exists x, made x /\ carries x id dt data) /\ names id dt
    | QGet id dt | QDelete id dt => names id dt
    end.
End Requests.
