(** C18, C34, C53 and C54: what the library does to slices it shares with its callers. *)
From stdpp Require Import gmap.
From Verif Require Import Bytes Go Uuid Types World Io IoHist Aes Gcm Kwp Cryptor Id D1 D1Proofs Sched Slices SlicesSpec SlicesProofs SlicesAead Demo SlicesDemo.
Local Open Scope bool_scope.

(** ** C18: the groups slice given to Encrypt *)

(** A call on its own returns what the call on the slice's elements returns, for every length and
    capacity.  The only cell of existing memory that may differ afterwards is the one behind the last
    element of the slice given to Encrypt, and only if the capacity exceeds the length.  Missing from C18:
    that cell is within memory reachable from the slice. *)
Theorem C18_alone_partial {S I} e io idp d room c h (w : world S I) r h' w' :
  (forall s, call_slice c = Some s -> sl_ok h s) ->
  run (d1_aes_s e io idp d room c) (h, w) = (r, (h', w')) ->
  run (d1_aes e io idp d (call_on h c)) w = (r, w') /\
  only_changed (fun a i => match c with
                           | SEncrypt _ _ s => a = sl_arr s /\ i = sl_off s + sl_len s /\ sl_len s < sl_cap s
                           | _ => False end) h h'.
Proof. exact (call_alone e io idp _ _ _ room c h w r h' w'). Qed.
Print Assumptions C18_alone_partial.
Example C18_alone_example : forall s, call_slice (SEncrypt tok_alice demo_obj demo_slice) = Some s -> sl_ok demo_heap s.
Proof. intros s [= <-]. exact demo_slice_ok. Qed.

(** Any number of calls in any schedule, with an adversary on storage and allocation by others: if no
    Encrypt is given a slice with spare capacity whose array another call's slice uses too, the calls
    return what they return on values, under some schedule of the same calls with the same effect on
    storage, and no array changes but those of Encrypts given spare capacity. *)
Theorem C18_concurrent_partial {S I} e io idp d room K cs h (w : world S I) pool' h' w' :
  Forall (fun c => forall s, call_slice c = Some s -> sl_ok h s) cs ->
  (forall t u c d s s', t <> u -> cs !! t = Some c -> cs !! u = Some d -> call_slice c = Some s -> call_slice d = Some s' ->
     sl_arr s = sl_arr s' -> ~ roomy c) ->
  exec_s K (map (d1_aes_s e io idp d room) cs) (h, w) pool' (h', w') ->
  exists pool2', exec K (map (fun c => d1_aes e io idp d (call_on h c)) cs) w pool2' w' /\ length pool2' = length pool' /\
    (forall t r, pool' !! t = Some (Ret r) -> pool2' !! t = Some (Ret r)) /\
    forall a, a < length h -> (forall c s, In c cs -> call_slice c = Some s -> sl_arr s = a -> ~ roomy c) -> cells h' a = cells h a.
Proof. exact (calls_concurrent e io idp _ _ _ room K cs h w pool' h' w'). Qed.
Print Assumptions C18_concurrent_partial.
(** Two Encrypts sharing a slice without spare capacity. *)
Example C18_concurrent_example : let full := mkSlice 0 0 2 2 in
  let cs := [SEncrypt tok_alice demo_obj full; SEncrypt tok_bob demo_obj2 full] in
  Forall (fun c => forall s, call_slice c = Some s -> sl_ok demo_heap s) cs /\
  forall t u c d s s', t <> u -> cs !! t = Some c -> cs !! u = Some d -> call_slice c = Some s -> call_slice d = Some s' ->
     sl_arr s = sl_arr s' -> ~ roomy c.
Proof.
  intros full cs. split; [apply List.Forall_forall; intros c [<-|[<-|[]]] s [= <-]; split; cbn; lia|].
  intros [|[|t]] u c d s s' _ Hc _ _ _ _; try discriminate Hc; injection Hc as <-; cbn; lia.
Qed.

(** False without the hypothesis: Encrypt(obj, buf[:1]...) replaces buf[1] by the caller's id ... *)
Theorem C18_memory_refuted : exists oid h' w',
  run (d1_aes_s demo_env Mem demo_idp demo_d1 no_room (SEncrypt tok_alice demo_obj demo_slice)) (demo_heap, demo_w) = (Ok (ROid oid), (h', w')) /\
  cells demo_heap 0 !! 1 = Some (str "kept") /\ cells h' 0 !! 1 = Some (i_id alice).
Proof. exact demo_overwritten. Qed.
Print Assumptions C18_memory_refuted.
(** ... and if alice and bob both call Encrypt with buf[:1], bob may come to own alice's object: alice is
    refused and bob decrypts it. *)
Theorem C18_shared_slice_refuted : exists oid oid2 h2 w2,
  exec_s (fun _ => False)
    [d1_aes_s demo_env Mem demo_idp demo_d1 no_room (SEncrypt tok_alice demo_obj demo_slice);
     d1_aes_s demo_env Mem demo_idp demo_d1 no_room (SEncrypt tok_bob demo_obj2 demo_slice)] (demo_heap, demo_w)
    [Ret (Ok (ROid oid)); Ret (Ok (ROid oid2))] (h2, w2) /\
  fst (demo_run (CDecrypt tok_alice oid) w2) = Err ED1NotAuthorized /\
  fst (demo_run (CDecrypt tok_bob oid) w2) = Ok (RObject demo_obj).
Proof. exact demo_shared. Qed.
Print Assumptions C18_shared_slice_refuted.

(** ** C34: buffers given to and returned by storage providers *)

(** Mem never writes to memory. *)
Theorem C34_mem_memory o h m r h' m' : run (mem_do_s o) (h, m) = (r, (h', m')) -> h' = h.
Proof. exact (mem_memory o h m r h' m'). Qed.
Print Assumptions C34_mem_memory.
(** Every caller that does not write into the data buffers it handed over gets the replies of the provider
    on values.  Missing: that the caller may write there, and to returned buffers (which are those). *)
Theorem C34_mem_data_partial ok h tr x : client mem_do_s ok not_into_kept [] (h, ∅) tr x ->
  map snd tr = io_history Mem (map fst tr) ∅.
Proof. exact (mem_client_empty ok h tr x). Qed.
Print Assumptions C34_mem_data_partial.
Example C34_mem_data_example : exists tr x, client mem_do_s op_ok not_into_kept [] (mem_heap, ∅) tr x /\ length tr = 1.
Proof.
  eexists _, _. split; [eapply (c_call _ _ _ _ (SPut mem_id 0 mem_data) mem_heap); [apply mem_ok|apply run_parts|apply c_end]|reflexivity].
Qed.
(** Stored data changes when the caller later writes into the buffer it handed over, ... *)
Theorem C34_mem_data_refuted : exists tr x,
  client mem_do_s op_ok anywhere [] (mem_heap, ∅) tr x /\
  tr = [(OPut id1 0 [x01], RDone (Ok tt)); (OGet id1 0, RData (Ok [x02]))].
Proof. exact mem_aliases. Qed.
Print Assumptions C34_mem_data_refuted.
(** ... or into the one Get returned. *)
Theorem C34_mem_returned_refuted : exists out m,
  run (mem_do_s (SPut mem_id 0 mem_data)) (mem_heap, ∅) = (SDone (Ok tt), (mem_heap, m)) /\
  run (mem_do_s (SGet mem_id 0)) (mem_heap, m) = (SData (Ok out), (mem_heap, m)) /\ contents mem_heap out = [x01] /\
  let h := sl_write mem_heap out 0 [x02] in
  reply_on h (fst (run (mem_do_s (SGet mem_id 0)) (h, m))) = RData (Ok [x02]).
Proof. exact mem_returns. Qed.
Print Assumptions C34_mem_returned_refuted.

(** Bolt writes at most to the three cells behind the id, and only if the capacity includes them. *)
Theorem C34_bolt_memory_partial room o h b r h' b' : sl_ok h (op_id o) -> run (bolt_do_s room o) (h, b) = (r, (h', b')) ->
  only_changed (fun a i => a = sl_arr (op_id o) /\ sl_off (op_id o) + sl_len (op_id o) <= i < sl_off (op_id o) + sl_len (op_id o) + 3 /\
                           sl_len (op_id o) + 3 <= sl_cap (op_id o)) h h'.
Proof. exact (bolt_memory room o h b r h' b'). Qed.
Print Assumptions C34_bolt_memory_partial.
(** It does: the caller's data in these cells is overwritten, even by Get. *)
Theorem C34_bolt_memory_refuted : exists r h' b',
  run (bolt_do_s (fun _ => []) (SGet bolt_id 1)) (bolt_heap, ∅) = (r, (h', b')) /\
  contents bolt_heap bolt_data = str "secret" /\ contents h' bolt_data = [x01; x00; x00] ++ str "ret".
Proof. exact bolt_overwrites. Qed.
Print Assumptions C34_bolt_memory_refuted.
(** A caller may write anywhere between its calls, including into buffers handed over and returned, and
    gets the replies of the provider on values, if no datum reaches into the three cells behind the id. *)
Theorem C34_bolt_data_partial room h tr x : client (bolt_do_s room) (fun h o => op_ok h o /\ op_apart o) anywhere [] (h, ∅) tr x ->
  map snd tr = io_history Bolt (map fst tr) ∅.
Proof. exact (bolt_client room [] h ∅ tr x). Qed.
Print Assumptions C34_bolt_data_partial.
Example C34_bolt_data_example : op_ok bolt_heap2 (SPut bolt_id2 0 bolt_data2) /\ op_apart (SPut bolt_id2 0 bolt_data2).
Proof. split; [repeat constructor; cbn; lia|]. intros _. repeat constructor. Qed.
(** If it does, something else is stored: Put(buf[:16], buf[16:]). *)
Theorem C34_bolt_data_refuted : exists tr x,
  client (bolt_do_s (fun _ => [])) op_ok not_into_kept [] (bolt_heap, ∅) tr x /\
  tr = [(OPut id1 1 (str "secret"), RDone (Ok tt)); (OGet id1 1, RData (Ok ([x01; x00; x00] ++ str "ret")))].
Proof. exact bolt_corrupts. Qed.
Print Assumptions C34_bolt_data_refuted.
(** Two calls at once with the same id slice and room behind it: Put of data type 0 succeeds, but the data
    is stored under data type 1, which the other call asked for. *)
Theorem C34_bolt_key_refuted : exists h' b' r,
  interleaved [bolt_do_s (fun _ => []) (SPut bolt_id2 0 bolt_data2); bolt_do_s (fun _ => []) (SGet bolt_id2 1)] (bolt_heap2, ∅)
              [Ret (SDone (Ok tt)); Ret r] (h', b') /\
  (let '(q, (h1, _)) := run (bolt_do_s (fun _ => []) (SGet bolt_id2 0)) (h', b') in reply_on h1 q) = RData (Err EIoNotFound) /\
  (let '(q, (h1, _)) := run (bolt_do_s (fun _ => []) (SGet bolt_id2 1)) (h', b') in reply_on h1 q) = RData (Ok (str "object")).
Proof. exact bolt_confuses. Qed.
Print Assumptions C34_bolt_key_refuted.

(** ** C53: Cryptor on shared buffers *)

(** Decrypt leaves all existing memory, in particular the wrapped key and the ciphertext, as it was. *)
Theorem C53_decrypt_alone {S I} room spoil kek aad wk ct h (w : world S I) r h' w' : sl_ok h wk -> sl_ok h ct ->
  run (cryptor_decrypt_s room spoil kek aad wk ct) (h, w) = (r, (h', w')) ->
  r = aes_open kek aad (contents h wk) (contents h ct) /\ w' = w /\ unchanged h h'.
Proof. exact (cryptor_decrypt_alone room spoil kek aad wk ct h w r h' w'). Qed.
Print Assumptions C53_decrypt_alone.
(** Encrypt leaves all existing memory as it was and returns two buffers in new, different arrays. *)
Theorem C53_encrypt_alone {S I} e room kek pt aad h (w : world S I) r h' w' :
  run (cryptor_encrypt_s e room kek pt aad) (h, w) = (r, (h', w')) ->
  (exists l, run (aes_enc e kek pt aad) w = (res_map (fun '(wk, ct) => (contents h' wk, contents h' ct)) r, set_log w' l)) /\
  unchanged h h' /\ (forall wk ct, r = Ok (wk, ct) -> length h <= sl_arr wk /\ length h <= sl_arr ct /\ sl_arr wk <> sl_arr ct).
Proof. exact (cryptor_encrypt_alone e room (fun x => x) kek pt aad h w r h' w'). Qed.
Print Assumptions C53_encrypt_alone.
(** Any number of Decrypts at once, on the same or overlapping buffers, under any schedule. *)
Theorem C53_decrypt_concurrent {S I} room spoil K cs h (w : world S I) pool' h' w' :
  Forall (fun '(_, _, wk, ct) => sl_ok h wk /\ sl_ok h ct) cs ->
  exec_s K (map (fun '(kek, aad, wk, ct) => cryptor_decrypt_s room spoil kek aad wk ct) cs) (h, w) pool' (h', w') ->
  (forall t kek aad wk ct r, cs !! t = Some (kek, aad, wk, ct) -> pool' !! t = Some (Ret r) -> r = aes_open kek aad (contents h wk) (contents h ct)) /\
  (forall a, a < length h -> cells h' a = cells h a).
Proof. exact (decrypts_concurrent room spoil K cs h w pool' h' w'). Qed.
Print Assumptions C53_decrypt_concurrent.
Example C53_example : let s := mkSlice 0 0 14 42 in
  Forall (fun '(_, _, wk, ct) => sl_ok aes_heap wk /\ sl_ok aes_heap ct) [(id1, id1, s, s); (id1, id1, s, s)].
Proof. repeat constructor; cbn; lia. Qed.

(** ** C54: AES256GCM works in place *)

(** Encrypt computes AES-GCM of what the buffers held, for every capacity, and overwrites at most the
    plaintext and the 28 bytes behind it, these only if they are within its capacity. *)
Theorem C54_encrypt_in_place {S I} e room pt aad key h (w : world S I) r h' w' :
  sl_ok h pt -> sl_ok h aad -> sl_ok h key -> clear_of pt aad -> clear_of pt key ->
  run (aead_encrypt_s e room pt aad key) (h, w) = (r, (h', w')) ->
  run (aead_encrypt e (contents h pt) (contents h aad) (contents h key)) w = (res_map (contents h') r, w') /\
  only_changed (in_place pt) h h' /\
  (forall s, r = Ok s -> sl_ok h' s /\ (sl_arr s = sl_arr pt \/ length h <= sl_arr s) /\ 0 < sl_cap s).
Proof. exact (encrypt_in_place e room (fun x => x) pt aad key h w r h' w'). Qed.
Print Assumptions C54_encrypt_in_place.
Example C54_encrypt_example : let pt := mkSlice 0 0 14 42 in let key := mkSlice 1 0 32 32 in let aad := mkSlice 2 0 3 3 in
  sl_ok aes_heap pt /\ sl_ok aes_heap aad /\ sl_ok aes_heap key /\ clear_of pt aad /\ clear_of pt key.
Proof. destruct aes_ok as (H1 & H2 & H3). repeat split; try apply H1; try apply H2; try apply H3; apply (aes_clear _ _). Qed.
(** Decrypt computes what the buffers held, and overwrites at most the ciphertext's array, within its
    capacity; the result is in that array. *)
Theorem C54_decrypt_in_place {S I} spoil ct aad key h (w : world S I) r h' w' : sl_ok h ct ->
  run (aead_decrypt_s spoil ct aad key) (h, w) = (r, (h', w')) ->
  res_map (contents h') r = aes_gcm_decrypt (contents h ct) (contents h aad) (contents h key) /\ w' = w /\
  only_changed (fun a i => a = sl_arr ct /\ sl_off ct <= i < sl_off ct + sl_cap ct) h h' /\
  (forall s, r = Ok s -> sl_arr s = sl_arr ct).
Proof. exact (decrypt_in_place (fun _ => []) spoil ct aad key h w r h' w'). Qed.
Print Assumptions C54_decrypt_in_place.
