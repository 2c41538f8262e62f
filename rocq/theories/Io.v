(** The shipped io.Providers: io/mem.go, io/bolt.go, io/proxy.go. *)
From stdpp Require Import gmap.
From Verif Require Import Bytes Go Json Uuid World.
Local Open Scope bool_scope.
Local Open Scope N_scope.
Local Open Scope go_scope.

(** ** Mem.  The state is the content of the sync.Map; Load, Store and Delete of sync.Map are
    atomic steps.  Buffers are copied here; aliasing is modelled in Slices.v. *)

(** NewMem, io/mem.go:30-32, is the empty map.  newKey, io/mem.go:34-37: fmt "%x:%d". *)
Definition mem_key (id : bytes) (dt : N) : bytes := hex_encode id ++ str ":" ++ dec_print dt.
Notation mem := (gmap bytes bytes) (only parsing).
Definition mem_load (k : bytes) : prog mem (option bytes) := act (fun m => (m !! k, m)).
Definition mem_store (k d : bytes) : prog mem unit := act (fun m => (tt, <[k := d]> m)).
(** Mem.Put, io/mem.go:39-46. *)
Definition mem_put (id : bytes) (dt : N) (d : bytes) : prog mem (res unit) :=
  let* o := mem_load (mem_key id dt) in
  match o with
  | Some _ => Ret (Err EIoAlreadyExists)
  | None => let* _ := mem_store (mem_key id dt) d in Ret (Ok tt)
  end.
(** Mem.Get, io/mem.go:48-56. *)
Definition mem_get (id : bytes) (dt : N) : prog mem (res bytes) :=
  let* o := mem_load (mem_key id dt) in
  Ret match o with Some d => Ok d | None => Err EIoNotFound end.
(** Mem.Update, io/mem.go:58-65. *)
Definition mem_update (id : bytes) (dt : N) (d : bytes) : prog mem (res unit) :=
  let* o := mem_load (mem_key id dt) in
  match o with
  | None => Ret (Err EIoNotFound)
  | Some _ => let* _ := mem_store (mem_key id dt) d in Ret (Ok tt)
  end.
(** Mem.Delete, io/mem.go:67-71. *)
Definition mem_delete (id : bytes) (dt : N) : prog mem (res unit) :=
  let* _ := act (fun m : mem => (tt, delete (mem_key id dt) m)) in Ret (Ok tt).
Definition Mem : provider mem := mkProvider mem_put mem_get mem_update mem_delete.

(** ** Bolt.  The state is the content of the one bucket; a bbolt transaction is one atomic step.
    NewBolt, io/bolt.go:32-53, opens the file and keeps the bucket it finds there, or makes an empty one.
    Not modelled: bbolt's limits on key (32768 bytes) and value size, and I/O errors (the
    fault-injecting providers of the theorems cover those). *)

(** DataType.Bytes, io/io.go:44-48: two little-endian bytes and one zero. *)
Definition dt_bytes (dt : N) : bytes := [Nb dt; Nb (dt / 256); x00].
Definition bolt_key (id : bytes) (dt : N) : bytes := id ++ dt_bytes dt.
Notation bolt := (gmap bytes bytes) (only parsing).
(** Bolt.Put, io/bolt.go:55-64. *)
Definition bolt_put (id : bytes) (dt : N) (d : bytes) : prog bolt (res unit) :=
  act (fun m => match m !! bolt_key id dt with
                | Some _ => (Err EIoAlreadyExists, m)
                | None => (Ok tt, <[bolt_key id dt := d]> m)
                end).
(** Bolt.Get, io/bolt.go:66-81: appending an empty value to a nil slice leaves it nil. *)
Definition bolt_get (id : bytes) (dt : N) : prog bolt (res bytes) :=
  act (fun m => (match m !! bolt_key id dt with
                 | None | Some [] => Err EIoNotFound
                 | Some d => Ok d
                 end, m)).
(** Bolt.Update, io/bolt.go:83-92. *)
Definition bolt_update (id : bytes) (dt : N) (d : bytes) : prog bolt (res unit) :=
  act (fun m => match m !! bolt_key id dt with
                | None => (Err EIoNotFound, m)
                | Some _ => (Ok tt, <[bolt_key id dt := d]> m)
                end).
(** Bolt.Delete, io/bolt.go:94-100. *)
Definition bolt_delete (id : bytes) (dt : N) : prog bolt (res unit) :=
  act (fun m => (Ok tt, delete (bolt_key id dt) m)).
Definition Bolt : provider bolt := mkProvider bolt_put bolt_get bolt_update bolt_delete.

(** ** Proxy, io/proxy.go:17-47: four function values; NewProxy installs the implementation's. *)
Record proxy (S : Type) := mkProxy {
  PutFunc : bytes -> N -> bytes -> prog S (res unit);
  GetFunc : bytes -> N -> prog S (res bytes);
  UpdateFunc : bytes -> N -> bytes -> prog S (res unit);
  DeleteFunc : bytes -> N -> prog S (res unit) }.
Arguments mkProxy {S}.
Arguments PutFunc {S}. Arguments GetFunc {S}. Arguments UpdateFunc {S}. Arguments DeleteFunc {S}.
Definition new_proxy {S} (impl : provider S) : proxy S :=
  mkProxy (io_put impl) (io_get impl) (io_update impl) (io_delete impl).
Definition proxy_provider {S} (p : proxy S) : provider S :=
  mkProvider (PutFunc p) (GetFunc p) (UpdateFunc p) (DeleteFunc p).
