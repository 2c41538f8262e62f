(** Properties about panics.  The model panics where the code would: on a slice expression out of
    range, on an assignment to a nil map, and when the storage or identity provider panics.
    [exec K pool w pool' w'] lets the calls of a pool run at once, interleaved with an adversary who
    changes storage at will and encrypts under any key outside [K]. *)
From stdpp Require Import gmap.
From Verif Require Import Bytes Go Time World Cryptor Io IoSpec IoProofs Id Data D1 Sched Standalone StandaloneSpec StandaloneRefine StandaloneHist StandaloneDemo
  Index NoPanic NoPanicDemo.
Local Open Scope N_scope.

(** C49, D1.  No call panics: whatever storage answers, whatever else runs, whatever keys the
    adversary knows. *)
Theorem C49_d1_never_panics {S I} (e : env) (io : provider S) (idp : bytes -> prog (world S I) (res identity)) (d : d1) (K : bytes -> Prop)
  (calls : list d1_call) (w w' : world S I) (pool' : list (prog (world S I) (res d1_reply))) :
  steady io -> (forall tok, calmly (idp tok)) ->
  exec K (map (d1_aes e io idp d) calls) w pool' w' -> forall t, pool' !! t <> Some (Ret Panic).
Proof. intros Hio Hidp. exact (calm_pool K _ calls w pool' w' (d1_calm e io idp d Hio Hidp)). Qed.
Print Assumptions C49_d1_never_panics.

(** C49, index.  The same for an index built by NewSecureIndex. *)
Theorem C49_index_never_panics {S I} (e : env) (io : provider S) (idp : bytes -> prog (world S I) (res identity)) (iek : bytes) (fuel : nat) (K : bytes -> Prop)
  (calls : list ix_call) (w w' : world S I) (pool' : list (prog (world S I) (res ix_reply))) :
  length iek = 32%nat -> steady io -> (forall tok, calmly (idp tok)) ->
  exec K (map (ix_do e io idp iek fuel) calls) w pool' w' -> forall t, pool' !! t <> Some (Ret Panic).
Proof.
  intros Hk Hio Hidp. exact (calm_pool K _ calls w pool' w' (ix_calm e io idp Hio Hidp iek (f_equal N.of_nat Hk) fuel)).
Qed.
Print Assumptions C49_index_never_panics.

(** C49, Standalone as the identity provider of a D1 or an index: GetIdentity never panics. *)
Theorem C49_standalone_get_identity_never_panics {S I} (e : env) (io : provider S) (k : sa_keys) (tok : bytes) :
  steady io -> calmly (sa_idp e io k tok : prog (world S I) (res identity)).
Proof. intros Hio. exact (sa_idp_calm e io k Hio tok). Qed.
Print Assumptions C49_standalone_get_identity_never_panics.

(** The shipped storage providers do not panic, so the hypotheses of these theorems hold. *)
Example C49_case : steady Mem /\ steady Bolt /\
  forall e k tok, calmly (sa_idp e Mem k tok : prog (world (gmap bytes bytes) unit) _).
Proof. exact (conj mem_steady (conj bolt_steady (fun e k => sa_idp_calm e Mem k mem_steady))). Qed.

(** C49, Standalone.  No call panics if the user key differs from the group key: whatever storage
    answers and whatever else runs, as long as nobody else encrypts under the user key and no forged
    ciphertext is accepted. *)
Theorem C49_standalone_no_panic_partial {S I} (e : env) (io : provider S) (k : sa_keys)
  (calls : list sa_call) (w w' : world S I) (pool' : list (prog (world S I) (res sa_reply))) :
  steady io -> s_gek k <> s_uek k -> Forall sa_call_wf calls -> Forall (fun x => e_kek x <> s_uek k) (w_log w) ->
  exec (fun x => x = s_uek k) (map (sa_aes e io k) calls) w pool' w' -> w_forged w' = false ->
  forall t, pool' !! t <> Some (Ret Panic).
Proof. intros Hio Hk. exact (sa_exec e io k Hio Hk calls w pool' w'). Qed.
Print Assumptions C49_standalone_no_panic_partial.
Example C49_standalone_case : steady Mem /\ s_gek sa_k <> s_uek sa_k /\ Forall sa_call_wf [SNewUser [ScopeAll]; SLogin [] []] /\
  Forall (fun x => e_kek x <> s_uek sa_k) (w_log sa_w) /\ w_forged sa_w = false.
Proof. split; [exact mem_steady|]. split; [discriminate|]. split; [repeat constructor|]. split; [constructor|reflexivity]. Qed.

(** If the user key and the group key are the same, LoginUser panics once storage holds, in the slot
    of a user, the record of any group with its fields renamed.  Storage needs no key for that, and
    nothing is forged. *)
Theorem C49_login_shared_key_refuted {S I} (e : env) (v : view S) (io : provider S) (k : sa_keys) (w0 w w' w'' : world S I)
  (evs : list sa_event) (d : directory) (gid : bytes) (s : N) (uid pw : bytes) (r : res sa_reply) :
  io_spec False v io -> (forall n, time_wf (clock e n)) -> s_gek k = s_uek k ->
  sa_fresh v k w0 -> sa_run e io k (sa_elsewhere v k) w0 evs w -> w_forged w = false -> sa_history dir_empty evs d ->
  d_groups d !! gid = Some s -> transplanted v w w' gid uid ->
  run (sa_aes e io k (SLogin uid pw)) w' = (r, w'') -> w_forged w'' = false /\ r = Panic.
Proof. intros Hio Hc. exact (transplant_login v k e io Hio Hc w0 w w' evs d gid s uid pw r w''). Qed.
Print Assumptions C49_login_shared_key_refuted.
Example C49_refuted_case (uid : bytes) : exists evs d w w' gid s,
  s_gek shared_k = s_uek shared_k /\ (forall n, time_wf (clock sa_env n)) /\
  sa_fresh mem_view shared_k sa_w /\ sa_run sa_env Mem shared_k (sa_elsewhere mem_view shared_k) sa_w evs w /\ w_forged w = false /\ sa_history dir_empty evs d /\
  d_groups d !! gid = Some s /\ transplanted mem_view w w' gid uid /\ length evs = 5%nat.
Proof.
  destruct (demo_transplant uid) as (evs & d & w & w' & gid & s & H). exists evs, d, w, w', gid, s. exact (conj eq_refl (conj sa_clock H)).
Qed.
