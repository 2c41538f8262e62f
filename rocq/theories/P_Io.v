(** Properties of the shipped storage providers. *)
From stdpp Require Import gmap list.
From Verif Require Import Bytes Go World Io IoSpec IoProofs Threads IoHist.
Local Open Scope N_scope.

(** C31.  Every history of calls on a fresh in-memory provider gets exactly the replies of a map
    keyed by (id, data type), whatever ids, types and values occur. *)
Theorem C31_mem_is_a_map (os : list io_op) :
  Forall op_wf os -> io_history Mem os ∅ = map_history os store_empty.
Proof. intros H. rewrite (mem_history os ∅ H). exact (map_history_seq os _ _ mem_empty). Qed.
Print Assumptions C31_mem_is_a_map.
(** The same from any state, with respect to the map it stands for. *)
Theorem C31_mem_is_a_map_from (os : list io_op) (s : gmap bytes bytes) :
  Forall op_wf os -> io_history Mem os s = map_history os (v_map mem_view s).
Proof. exact (mem_history os s). Qed.
Print Assumptions C31_mem_is_a_map_from.
Example C31_case :
  let os := [OPut [x01] 2 [xaa]; OPut [x01] 18 [xbb]; OUpdate [x01] 2 [xcc]; OGet [x01] 2; OPut [x01] 2 []; ODelete [x01] 2; OGet [x01] 2; OGet [x01] 18] in
  Forall op_wf os /\
  map_history os store_empty = [RDone (Ok tt); RDone (Ok tt); RDone (Ok tt); RData (Ok [xcc]); RDone (Err EIoAlreadyExists); RDone (Ok tt); RData (Err EIoNotFound); RData (Ok [xbb])].
Proof. split; [repeat constructor|vm_compute; reflexivity]. Qed.

(** C32.  The same for Bolt, as long as no empty value is stored. *)
Theorem C32_bolt_is_a_map_partial (os : list io_op) :
  Forall op_wf os -> Forall op_nonempty os -> io_history Bolt os ∅ = map_history os store_empty.
Proof.
  intros H N. rewrite (bolt_history os ∅ H N (proj1 bolt_empty)). exact (map_history_seq os _ _ (proj2 bolt_empty)).
Qed.
Print Assumptions C32_bolt_is_a_map_partial.
(** An empty value, once stored, cannot be read but blocks its id. *)
Theorem C32_bolt_empty_value_refuted (id : bytes) (dt : N) (d : bytes) : dt < 65536 ->
  io_history Bolt [OPut id dt []; OGet id dt; OPut id dt d] ∅ =
    [RDone (Ok tt); RData (Err EIoNotFound); RDone (Err EIoAlreadyExists)] /\
  map_history [OPut id dt []; OGet id dt; OPut id dt d] store_empty =
    [RDone (Ok tt); RData (Ok []); RDone (Err EIoAlreadyExists)].
Proof.
  intros H. split.
  - cbn. unfold bolt_put, bolt_get. rewrite lookup_empty. cbn. rewrite lookup_insert. cbn. rewrite lookup_insert. reflexivity.
  - cbn -[upd]. unfold map_put, map_get. cbn -[upd]. rewrite upd_same. cbn -[upd]. rewrite ?upd_same. reflexivity.
Qed.
Print Assumptions C32_bolt_empty_value_refuted.
Example C32_case :
  let os := [OPut [x01] 2 [xaa]; OPut [x01; x02] 0 [xbb]; OGet [x01] 2; ODelete [x01; x02] 0; OGet [x01] 2] in
  Forall op_wf os /\ Forall op_nonempty os /\
  map_history os store_empty = [RDone (Ok tt); RDone (Ok tt); RData (Ok [xaa]); RDone (Ok tt); RData (Ok [xaa])].
Proof. split; [repeat constructor|split; [repeat constructor; discriminate|vm_compute; reflexivity]]. Qed.

(** The Proxy answers as the provider it was built from. *)
Theorem C31_proxy_is_transparent {S} (impl : provider S) (os : list io_op) (s : S) :
  io_history (proxy_provider (new_proxy impl)) os s = io_history impl os s.
Proof. rewrite proxy_same. reflexivity. Qed.
Print Assumptions C31_proxy_is_transparent.

(** C33.  Bolt: any calls run concurrently in any interleaving; those for (id, dt) are Puts and
    Gets.  At most one Put for (id, dt) returns success, only if the id was free, and the
    value stored then and ever after is the one it was given. *)
Theorem C33_bolt_put_exclusive (id : bytes) (dt : N) (ops : list io_op) (s0 : gmap bytes bytes) (pool' : list (prog (gmap bytes bytes) io_reply)) (s' : gmap bytes bytes) :
  dt < 65536 -> Forall op_wf ops ->
  (forall o, In o ops -> op_key o = (id, dt) -> match o with OPut _ _ _ | OGet _ _ => True | _ => False end) ->
  steps (map (io_do Bolt) ops) s0 pool' s' ->
  (forall t d t' d', ops !! t = Some (OPut id dt d) -> pool' !! t = Some (Ret (RDone (Ok tt))) ->
                     ops !! t' = Some (OPut id dt d') -> pool' !! t' = Some (Ret (RDone (Ok tt))) -> t = t') /\
  (forall t d, ops !! t = Some (OPut id dt d) -> pool' !! t = Some (Ret (RDone (Ok tt))) ->
               s0 !! bolt_key id dt = None /\ s' !! bolt_key id dt = Some d).
Proof.
  intros Hdt Hwf Hputs H. destruct (bolt_put_exclusive id dt Hdt ops s0 Hwf Hputs pool' s' H) as [A B]. split.
  - intros t d t' d' H1 H2 H3 H4. exact (A t d t' d' (conj H1 H2) (conj H3 H4)).
  - intros t d H1 H2. exact (B t d (conj H1 H2)).
Qed.
Print Assumptions C33_bolt_put_exclusive.
Example C33_case : exists pool' s',
  steps (map (io_do Bolt) [OPut [x01] 2 [xaa]; OPut [x01] 2 [xbb]; ODelete [x02] 2]) ∅ pool' s' /\
  pool' !! 1%nat = Some (Ret (RDone (Ok tt))) /\ pool' !! 0%nat = Some (Ret (RDone (Err EIoAlreadyExists))).
Proof.
  eexists _, _. split.
  - eapply (s_step 1); [reflexivity|]. eapply (s_step 2); [reflexivity|]. eapply (s_step 0); [reflexivity|]. apply s_nil.
  - vm_compute. auto.
Qed.

(** The in-memory provider checks and stores in two separate actions: two concurrent Puts can
    both return success, and the value of one of them is lost. *)
Theorem C33_mem_put_exclusive_refuted (id : bytes) (dt : N) (d d' : bytes) : exists s',
  steps (map (io_do Mem) [OPut id dt d; OPut id dt d']) ∅
        [Ret (RDone (Ok tt)); Ret (RDone (Ok tt))] s' /\ s' !! mem_key id dt = Some d'.
Proof.
  eexists. split.
  - eapply (s_step 0); [reflexivity|]. eapply (s_step 1); [reflexivity|]. cbn. rewrite !lookup_empty.
    eapply (s_step 0); [reflexivity|]. eapply (s_step 1); [reflexivity|]. cbn. apply s_nil.
  - apply lookup_insert.
Qed.
Print Assumptions C33_mem_put_exclusive_refuted.
