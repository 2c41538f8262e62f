(** Histories of provider calls: the specification, and the proofs behind P_Io.v. *)
From stdpp Require Import gmap list.
From Verif Require Import Bytes Go Uuid World Logic Io IoSpec IoProofs Threads.
Local Open Scope bool_scope.
Local Open Scope N_scope.
Local Open Scope go_scope.

(** ** Calls on a provider and on a map *)
Inductive io_op :=
| OPut (id : bytes) (dt : N) (d : bytes)
| OGet (id : bytes) (dt : N)
| OUpdate (id : bytes) (dt : N) (d : bytes)
| ODelete (id : bytes) (dt : N).
(** Get replies with data, the others without. *)
Inductive io_reply := RDone (r : res unit) | RData (r : res bytes).
Definition io_do {S} (io : provider S) (o : io_op) : prog S io_reply :=
  match o with
  | OPut id dt d => let* r := io_put io id dt d in Ret (RDone r)
  | OGet id dt => let* r := io_get io id dt in Ret (RData r)
  | OUpdate id dt d => let* r := io_update io id dt d in Ret (RDone r)
  | ODelete id dt => let* r := io_delete io id dt in Ret (RDone r)
  end.
Definition map_do (o : io_op) (m : store) : io_reply * store :=
  match o with
  | OPut id dt d => let '(r, m') := map_put id dt d m in (RDone r, m')
  | OGet id dt => let '(r, m') := map_get id dt m in (RData r, m')
  | OUpdate id dt d => let '(r, m') := map_update id dt d m in (RDone r, m')
  | ODelete id dt => let '(r, m') := map_delete id dt m in (RDone r, m')
  end.
(** The replies to a history, call after call. *)
Fixpoint io_history {S} (io : provider S) (os : list io_op) (s : S) : list io_reply :=
  match os with
  | [] => []
  | o :: os' => let '(r, s') := run (io_do io o) s in r :: io_history io os' s'
  end.
Fixpoint map_history (os : list io_op) (m : store) : list io_reply :=
  match os with
  | [] => []
  | o :: os' => let '(r, m') := map_do o m in r :: map_history os' m'
  end.
(** A data type is a uint16. *)
Definition op_wf (o : io_op) : Prop :=
  match o with OPut _ dt _ | OGet _ dt | OUpdate _ dt _ | ODelete _ dt => dt < 65536 end.
Definition op_nonempty (o : io_op) : Prop :=
  match o with OPut _ _ d | OUpdate _ _ d => d <> [] | _ => True end.
Definition op_key (o : io_op) : bytes * N :=
  match o with OPut i dt _ | OGet i dt | OUpdate i dt _ | ODelete i dt => (i, dt) end.

(** ** Sequential histories *)
Lemma map_do_seq o m m' : seq m m' -> fst (map_do o m) = fst (map_do o m') /\ seq (snd (map_do o m)) (snd (map_do o m')).
Proof.
  intros H. destruct o as [id dt d|id dt|id dt d|id dt]; cbn [map_do];
    unfold map_put, map_get, map_update, map_delete; cbn; rewrite <- ?(H id dt);
    try destruct (m id dt); cbn; auto using upd_seq.
Qed.
Lemma map_history_seq os : forall m m', seq m m' -> map_history os m = map_history os m'.
Proof.
  induction os as [|o os IH]; intros m m' H; [reflexivity|]. cbn [map_history].
  destruct (map_do_seq o m m' H) as [E1 E2]. destruct (map_do o m) as [r m1], (map_do o m') as [r' m1']. cbn [fst snd] in *.
  f_equal; auto.
Qed.

Lemma mem_do (o : io_op) (s : mem) : op_wf o ->
  fst (run (io_do Mem o) s) = fst (map_do o (v_map mem_view s)) /\
  seq (v_map mem_view (snd (run (io_do Mem o) s))) (snd (map_do o (v_map mem_view s))).
Proof.
  cbn [v_map mem_view].
  destruct o as [id dt d|id dt|id dt d|id dt]; cbn [op_wf io_do map_do Mem io_put io_get io_update io_delete]; intros H;
    pose proof (look_at mem_key s id dt H) as L;
    unfold mem_put, mem_get, mem_update, mem_delete, mem_load, mem_store, map_put, map_get, map_update, map_delete; rewrite ?L.
  - cbn. destruct (s !! mem_key id dt) eqn:E; cbn; [split; [reflexivity|apply seq_refl]|].
    split; [reflexivity|]. apply (look_insert mem_key mem_key_inj); auto.
  - cbn. destruct (s !! mem_key id dt) eqn:E; cbn; (split; [reflexivity|apply seq_refl]).
  - cbn. destruct (s !! mem_key id dt) eqn:E; cbn; [|split; [reflexivity|apply seq_refl]].
    split; [reflexivity|]. apply (look_insert mem_key mem_key_inj); auto.
  - cbn. split; [reflexivity|]. apply (look_delete mem_key mem_key_inj); auto.
Qed.
Lemma mem_history os : forall s : mem, Forall op_wf os -> io_history Mem os s = map_history os (v_map mem_view s).
Proof.
  induction os as [|o os IH]; intros s H; [reflexivity|]. inversion H as [|? ? Ho Hos]; subst. cbn [io_history map_history].
  destruct (mem_do o s Ho) as [E1 E2].
  destruct (run (io_do Mem o) s) as [r s1], (map_do o (v_map mem_view s)) as [r' m1]. cbn [fst snd] in *. subst r'.
  f_equal. rewrite IH by assumption. now apply map_history_seq.
Qed.
Lemma mem_empty : seq (v_map mem_view ∅) store_empty.
Proof. intros id dt. cbn. unfold key_look. rewrite lookup_empty. now destruct (dt <? 65536). Qed.

Lemma bolt_do (o : io_op) (s : bolt) : op_wf o -> op_nonempty o -> v_inv bolt_view s ->
  fst (run (io_do Bolt o) s) = fst (map_do o (v_map bolt_view s)) /\
  seq (v_map bolt_view (snd (run (io_do Bolt o) s))) (snd (map_do o (v_map bolt_view s))) /\
  v_inv bolt_view (snd (run (io_do Bolt o) s)).
Proof.
  cbn [v_map v_inv bolt_view].
  assert (INS : forall (s : bolt) k d, d <> [] -> (forall k, s !! k <> Some []) -> forall k', <[k := d]> s !! k' <> Some []).
  { clear. intros s k d Hd H k'. destruct (decide (k = k')) as [->|Hne]; [rewrite lookup_insert; congruence|].
    rewrite lookup_insert_ne by auto. auto. }
  assert (DEL : forall (s : bolt) k, (forall k, s !! k <> Some []) -> forall k', delete k s !! k' <> Some []).
  { clear. intros s k H k'. destruct (decide (k = k')) as [->|Hne]; [rewrite lookup_delete; congruence|].
    rewrite lookup_delete_ne by auto. auto. }
  destruct o as [id dt d|id dt|id dt d|id dt]; cbn [op_wf op_nonempty io_do map_do Bolt io_put io_get io_update io_delete]; intros H Hd Hi;
    pose proof (look_at bolt_key s id dt H) as L;
    unfold bolt_put, bolt_get, bolt_update, bolt_delete, map_put, map_get, map_update, map_delete; rewrite ?L.
  - cbn. destruct (s !! bolt_key id dt) eqn:E; cbn; [split; [reflexivity|split; [apply seq_refl|exact Hi]]|].
    split; [reflexivity|]. split; [apply (look_insert bolt_key bolt_key_inj); auto|]. now apply INS.
  - cbn. destruct (s !! bolt_key id dt) as [[|x t]|] eqn:E; cbn; (split; [|split; [apply seq_refl|exact Hi]]); try reflexivity.
    exfalso. eapply Hi; eauto.
  - cbn. destruct (s !! bolt_key id dt) eqn:E; cbn; [|split; [reflexivity|split; [apply seq_refl|exact Hi]]].
    split; [reflexivity|]. split; [apply (look_insert bolt_key bolt_key_inj); auto|]. now apply INS.
  - cbn. split; [reflexivity|]. split; [apply (look_delete bolt_key bolt_key_inj); auto|]. now apply DEL.
Qed.
Lemma bolt_history os : forall s : bolt, Forall op_wf os -> Forall op_nonempty os -> v_inv bolt_view s ->
  io_history Bolt os s = map_history os (v_map bolt_view s).
Proof.
  induction os as [|o os IH]; intros s H N I; [reflexivity|].
  inversion H as [|? ? Ho Hos]; subst. inversion N as [|? ? No Nos]; subst. cbn [io_history map_history].
  destruct (bolt_do o s Ho No I) as (E1 & E2 & E3).
  destruct (run (io_do Bolt o) s) as [r s1], (map_do o (v_map bolt_view s)) as [r' m1]. cbn [fst snd] in *. subst r'.
  f_equal. rewrite IH by assumption. now apply map_history_seq.
Qed.
Lemma bolt_empty : v_inv bolt_view ∅ /\ seq (v_map bolt_view ∅) store_empty.
Proof.
  split.
  - intros k. rewrite lookup_empty. discriminate.
  - intros id dt. cbn. unfold key_look. rewrite lookup_empty. now destruct (dt <? 65536).
Qed.

(** ** Concurrent Puts on Bolt *)
Section BoltPuts.
  Context (id : bytes) (dt : N) (Hdt : dt < 65536) (ops : list io_op) (s0 : bolt).
  Context (Hwf : Forall op_wf ops).
  (** The only calls for this id and type are Puts and Gets. *)
  Context (Hputs : forall o, In o ops -> op_key o = (id, dt) ->
     match o with OPut _ _ _ | OGet _ _ => True | _ => False end).
  Notation k := (bolt_key id dt).

  (** Thread [t] put [d] under the id and succeeded. *)
  Definition put_won (pool : list (prog bolt io_reply)) (t : nat) (d : bytes) : Prop :=
    ops !! t = Some (OPut id dt d) /\ pool !! t = Some (Ret (RDone (Ok tt))).

  Lemma key_of o : op_wf o -> op_key o <> (id, dt) -> bolt_key (op_key o).1 (op_key o).2 <> k.
  Proof.
    intros W N E. apply bolt_key_inj in E as [E1 E2]; [|destruct o; exact W|exact Hdt].
    apply N. destruct (op_key o). cbn in *. congruence.
  Qed.
  Definition inv (pool : list (prog bolt io_reply)) (s : bolt) : Prop :=
    length pool = length ops /\
    (forall t o, ops !! t = Some o -> pool !! t = Some (io_do Bolt o) \/ exists r, pool !! t = Some (Ret r)) /\
    ((s !! k = s0 !! k /\ (forall t d, ~ put_won pool t d)) \/
     (s0 !! k = None /\ exists t d, put_won pool t d /\ s !! k = Some d /\ forall t' d', put_won pool t' d' -> t' = t)).

  (** One call on Bolt is one action. *)
  Definition one_shot (p : prog bolt io_reply) : Prop :=
    match p with
    | Ret _ => False
    | Step f c => forall s, c (fst (f s)) = Ret (fst (run p s)) /\ snd (f s) = snd (run p s)
    end.
  Lemma bolt_one_shot o : one_shot (io_do Bolt o).
  Proof.
    destruct o; cbn; unfold bolt_put, bolt_get, bolt_update, bolt_delete; cbn; intros s.
    - destruct (s !! _); auto.
    - destruct (s !! _) as [[|]|]; auto.
    - destruct (s !! _); auto.
    - auto.
  Qed.
  Lemma bolt_step (o : io_op) X (f : bolt -> X * bolt) c s : io_do Bolt o = Step f c ->
    c (fst (f s)) = Ret (fst (run (io_do Bolt o) s)) /\ snd (f s) = snd (run (io_do Bolt o) s).
  Proof. intros E. pose proof (bolt_one_shot o) as H. rewrite E in *. apply H. Qed.

  (** The effect of one call on the key. *)
  Lemma bolt_key_effect (o : io_op) (s : bolt) : In o ops ->
    match o with
    | OPut i t d => if bool_decide ((i, t) = (id, dt))
        then if s !! k then fst (run (io_do Bolt o) s) = RDone (Err EIoAlreadyExists) /\ snd (run (io_do Bolt o) s) !! k = s !! k
             else fst (run (io_do Bolt o) s) = RDone (Ok tt) /\ snd (run (io_do Bolt o) s) !! k = Some d
        else snd (run (io_do Bolt o) s) !! k = s !! k
    | _ => snd (run (io_do Bolt o) s) !! k = s !! k
    end.
  Proof.
    intros Hin. pose proof (proj1 (List.Forall_forall _ _) Hwf o Hin) as W. pose proof (Hputs o Hin) as P.
    destruct o as [i t d|i t|i t d|i t]; cbn [op_key op_wf] in *.
    - case_bool_decide as E.
      + injection E as -> ->. cbn. unfold bolt_put. destruct (s !! k) eqn:Es; cbn; [auto|]. split; [reflexivity|apply lookup_insert].
      + cbn. unfold bolt_put. destruct (s !! bolt_key i t); cbn; [reflexivity|]. apply lookup_insert_ne.
        intros F. apply bolt_key_inj in F as [-> ->]; auto.
    - cbn. unfold bolt_get. destruct (s !! bolt_key i t) as [[|]|]; reflexivity.
    - cbn. unfold bolt_update. destruct (s !! bolt_key i t); cbn; [|reflexivity]. apply lookup_insert_ne.
      intros F. apply bolt_key_inj in F as [-> ->]; auto.
    - cbn. apply lookup_delete_ne. intros F. apply bolt_key_inj in F as [-> ->]; auto.
  Qed.

  Lemma inv_step (t : nat) X (f : bolt -> X * bolt) (c : X -> prog bolt io_reply) (pool : list (prog bolt io_reply)) (s : bolt) : pool !! t = Some (Step f c) -> inv pool s ->
    inv (<[t := c (fst (f s))]> pool) (snd (f s)).
  Proof.
    intros Ht (L & T & C).
    assert (Hlt : (t < length pool)%nat) by (eapply lookup_lt_Some; eauto).
    destruct (lookup_lt_is_Some_2 ops t ltac:(lia)) as [o Ho].
    destruct (T t o Ho) as [E|[r E]]; [|congruence]. assert (Eo : io_do Bolt o = Step f c) by congruence.
    destruct (bolt_step o X f c s Eo) as [-> ->].
    assert (Hin : In o ops) by (apply elem_of_list_In; eapply elem_of_list_lookup_2; eauto).
    pose proof (bolt_key_effect o s Hin) as K. clear Eo.
    set (r := fst (run (io_do Bolt o) s)) in *. set (s1 := snd (run (io_do Bolt o) s)) in *.
    assert (PW : forall t' d', put_won (<[t := Ret r]> pool) t' d' <->
       (t' <> t /\ put_won pool t' d') \/ (t' = t /\ o = OPut id dt d' /\ r = RDone (Ok tt))).
    { intros t' d'. unfold put_won. destruct (decide (t' = t)) as [->|Hne].
      - rewrite list_lookup_insert by assumption. rewrite Ho. split.
        + intros [H1 H2]. right. repeat split; congruence.
        + intros [[H _]|(_ & H1 & H2)]; [congruence|]. rewrite H1, H2. auto.
      - rewrite list_lookup_insert_ne by auto. split; [auto|]. intros [[_ H]|[H _]]; [exact H|contradiction]. }
    assert (NT : forall d', ~ put_won pool t d') by (intros d' [_ H]; congruence).
    split; [now rewrite insert_length|]. split.
    { intros t' o' Ho'. destruct (decide (t' = t)) as [->|Hne].
      - right. exists r. now rewrite list_lookup_insert.
      - rewrite list_lookup_insert_ne by auto. auto. }
    assert (Cases : (exists d, o = OPut id dt d /\ s !! k = None /\ r = RDone (Ok tt) /\ s1 !! k = Some d) \/
                    (s1 !! k = s !! k /\ forall d, ~ (o = OPut id dt d /\ r = RDone (Ok tt)))).
    { destruct o as [i t1 d|i t1|i t1 d|i t1]; try (right; split; [exact K|intros d' [H _]; discriminate]).
      case_bool_decide as Eid.
      - injection Eid as -> ->. destruct (s !! k) eqn:Es.
        + right. destruct K as [K1 K2]. split; [exact K2|]. intros d' [_ H]. rewrite H in K1. discriminate.
        + left. exists d. destruct K. auto.
      - right. split; [exact K|]. intros d' [H _]. injection H as -> -> _. contradiction. }
    destruct Cases as [(d & Eo & Es & Er & Es1)|[Es1 Hno]].
    - right. destruct C as [[C1 C2]|(C1 & t2 & d2 & C2 & C3 & _)]; [|congruence].
      split; [congruence|]. exists t, d. split; [apply PW; right; auto|]. split; [exact Es1|].
      intros t' d' H. apply PW in H as [[_ H]|[H _]]; [exfalso; eapply C2; eauto|exact H].
    - destruct C as [[C1 C2]|(C1 & t2 & d2 & C2 & C3 & C4)].
      + left. split; [congruence|]. intros t' d' H. apply PW in H as [[_ H]|(_ & H1 & H2)]; [eapply C2; eauto|eapply Hno; eauto].
      + right. split; [exact C1|]. exists t2, d2. split; [|split; [congruence|]].
        * apply PW. left. split; [|exact C2]. intros ->. eapply NT; eauto.
        * intros t' d' H. apply PW in H as [[_ H]|(_ & H1 & H2)]; [eauto|exfalso; eapply Hno; eauto].
  Qed.

  Lemma inv_steps (pool : list (prog bolt io_reply)) (s : bolt) pool' s' : steps pool s pool' s' -> inv pool s -> inv pool' s'.
  Proof. induction 1 as [|t X f c pool s pool' s' Ht _ IH]; [auto|]. intros H. apply IH. eapply inv_step; eauto. Qed.
  Lemma inv_init : inv (map (io_do Bolt) ops) s0.
  Proof.
    split; [apply map_length|]. split.
    - intros t o H. left. change (map (io_do Bolt) ops) with (io_do Bolt <$> ops). rewrite list_lookup_fmap, H. reflexivity.
    - left. split; [reflexivity|]. intros t d [H1 H2].
      change (map (io_do Bolt) ops) with (io_do Bolt <$> ops) in H2. rewrite list_lookup_fmap, H1 in H2. cbn in H2.
      pose proof (bolt_one_shot (OPut id dt d)) as O. injection H2 as H2. cbn in H2. discriminate H2.
  Qed.

  Lemma bolt_put_exclusive pool' s' : steps (map (io_do Bolt) ops) s0 pool' s' ->
    (forall t d t' d', put_won pool' t d -> put_won pool' t' d' -> t = t') /\
    (forall t d, put_won pool' t d -> s0 !! k = None /\ s' !! k = Some d).
  Proof.
    intros H. apply inv_steps in H as (_ & _ & C); [|apply inv_init].
    destruct C as [[_ C]|(C1 & t & d & C2 & C3 & C4)].
    - split; [intros t d t' d' H1 _; exfalso; eapply C; eauto|intros t d H; exfalso; eapply C; eauto].
    - split.
      + intros t1 d1 t2 d2 H1 H2. apply C4 in H1, H2. congruence.
      + intros t1 d1 H. pose proof (C4 _ _ H) as ->. split; [exact C1|].
        destruct H as [H _], C2 as [C2 _]. congruence.
  Qed.
End BoltPuts.
