(** Consequences of the specification alone. *)
From stdpp Require Import gmap.
From Verif Require Import Bytes Go Uuid Types World Id D1 Spec Claims.
Local Open Scope N_scope.

Lemma on_list_has i need acl : on_list i need acl -> exists x, has_id i x /\ x ∈ acl.
Proof.
  intros [[H _]|(g & s & Hg & H & _)]; [exists (i_id i)|exists g]; split; auto; [now left|right; congruence].
Qed.

(** ** The access decision *)
Lemma step_decision x c m r m' need oid o acl : spec_step x c m r m' ->
  call_scope c = Some need -> call_oid c = Some oid -> m !! oid = Some (o, acl) ->
  (allowed (o_who x) need acl -> served r) /\ (~ allowed (o_who x) need acl -> refused (o_who x) r /\ m' = m).
Proof.
  intros H Hn Ho Hm. unfold served, refused, allowed.
  destruct c; try discriminate; injection Ho as ->; injection Hn as <-; cbn [spec_step] in H;
    unfold with_access, with_scope, or_random, refuse in H; rewrite ?Hm in H;
    destruct (o_who x) as [i| |];
    (split; [intros (i' & Hi & Hs & Hl); try discriminate; try (injection Hi as <-)
            |intros N]);
    repeat match goal with
    | H : _ \/ _ |- _ => destruct H as [H|H]
    | H : _ /\ _ |- _ => destruct H
    end; subst; try contradiction; eauto; exfalso; apply N; eauto.
Qed.

(** ** Revocation *)
Definition revoked (oid : uuid) (X : bytes -> Prop) (m : objects) : Prop :=
  match m !! oid with Some (_, acl) => forall x, X x -> x ∉ acl | None => False end.
Lemma step_revoked x c m r m' oid X : spec_step x c m r m' ->
  ~ adds_to oid X (mkEvent x c r) -> ~ creates oid (mkEvent x c r) ->
  (revoked oid X m -> revoked oid X m' \/ (m' !! oid = None /\ deletes oid (mkEvent x c r))) /\
  (m !! oid = None -> m' !! oid = None).
Proof.
  intros H NA NC. unfold adds_to, creates, deletes, revoked in *. cbn [ev_call ev_reply] in *.
  destruct c; cbn [spec_step] in H; unfold with_access, with_scope, or_random, refuse in H; destruct (o_who x) as [i| |];
    repeat match goal with
    | H : _ \/ _ |- _ => destruct H as [H|H]
    | H : exists _, _ |- _ => destruct H
    | H : _ /\ _ |- _ => destruct H
    | H : match ?m !! ?o with _ => _ end |- _ => let E := fresh "E" in destruct (m !! o) as [[? ?]|] eqn:E
    end; subst; (split; [intros HR|intros HN]); try (left; exact HR); try exact HN; auto.
  (* Encrypt: another id *)
  1,2: rewrite lookup_insert_ne by (intros ->; apply NC; congruence); auto.
  (* Update *)
  1,2: destruct (decide (oid = oid0)) as [->|Hne]; [|rewrite lookup_insert_ne by congruence; auto].
  - rewrite lookup_insert. rewrite E in HR. auto.
  - congruence.
  (* Delete *)
  - destruct (decide (oid = oid0)) as [->|Hne]; [|rewrite lookup_delete_ne by congruence; auto].
    right. split; [apply lookup_delete|]. eauto.
  - destruct (decide (oid = oid0)) as [->|Hne]; [apply lookup_delete|rewrite lookup_delete_ne by congruence; auto].
  (* Add *)
  - destruct (decide (oid = oid0)) as [->|Hne]; [|rewrite lookup_insert_ne by congruence; auto].
    rewrite lookup_insert. rewrite E in HR. left. intros y Hy Hin. apply elem_of_union in Hin as [Hin|Hin].
    + exact (HR y Hy Hin).
    + apply elem_of_list_to_set, elem_of_list_In, in_map_iff in Hin as (z & <- & Hz). apply NA. eauto 10.
  - destruct (decide (oid = oid0)) as [->|Hne]; [congruence|]. rewrite lookup_insert_ne by congruence; auto.
  (* Remove *)
  - destruct (decide (oid = oid0)) as [->|Hne]; [|rewrite lookup_insert_ne by congruence; auto].
    rewrite lookup_insert. rewrite E in HR. left. intros y Hy Hin. apply elem_of_difference in Hin as [Hin _].
    exact (HR y Hy Hin).
  - destruct (decide (oid = oid0)) as [->|Hne]; [congruence|]. rewrite lookup_insert_ne by congruence; auto.
Qed.
Lemma history_revoked evs : forall oid X m m', spec_history m evs m' ->
  Forall (fun ev => ~ adds_to oid X ev /\ ~ creates oid ev) evs ->
  (m !! oid = None -> m' !! oid = None) /\
  (revoked oid X m -> revoked oid X m' \/ (m' !! oid = None /\ Exists (deletes oid) evs)).
Proof.
  induction evs as [|ev evs IH]; intros oid X m m' H HF; inversion H; subst; [auto|].
  pose proof (List.Forall_inv_tail HF) as HF'. apply List.Forall_inv in HF as [NA NC].
  destruct ev as [x c r]. cbn [ev_outside ev_call ev_reply] in *.
  match goal with HS : spec_step _ _ _ _ ?m1, HH : spec_history _ _ _ |- _ =>
    destruct (step_revoked _ _ _ _ _ oid X HS NA NC) as [S1 S2]; destruct (IH oid X _ _ HH HF') as [I1 I2] end.
  split; [auto|]. intros HR. destruct (S1 HR) as [HR'|[HN HD]].
  - destruct (I2 HR') as [|[? ?]]; [auto|]. right. split; [assumption|]. now apply Exists_cons_tl.
  - right. split; [auto|]. now apply Exists_cons_hd.
Qed.
(** What a caller with no id on the list gets. *)
Lemma revoked_refused x c m r m' oid (X : bytes -> Prop) i : spec_step x c m r m' -> call_oid c = Some oid ->
  o_who x = Ok i -> (forall y, has_id i y -> X y) ->
  (revoked oid X m -> r = Err ED1NotAuthorized /\ m' = m) /\
  (m !! oid = None -> (r = Err ED1NotAuthorized \/ r = Err ED1AccessNotFound \/ (r = Ok RUnit /\ exists t, c = CDelete t oid)) /\ m' = m).
Proof.
  intros H Ho Hw HX. split.
  - unfold revoked. destruct (m !! oid) as [[o acl]|] eqn:Em; [|contradiction]. intros HR.
    assert (NA : forall need, ~ allowed (o_who x) need acl).
    { intros need (i' & Hi & _ & Hl). rewrite Hw in Hi. injection Hi as <-.
      apply on_list_has in Hl as (y & Hy & Hin). exact (HR y (HX y Hy) Hin). }
    destruct (call_scope c) as [need|] eqn:En; [|destruct c; discriminate].
    destruct (step_decision x c m r m' need oid o acl H En Ho Em) as [_ D]. specialize (D (NA need)).
    unfold refused in D. rewrite Hw in D. exact D.
  - intros HN. destruct c; try discriminate; injection Ho as ->; cbn [spec_step] in H;
      unfold with_access, with_scope, refuse in H; rewrite Hw, ?HN in H;
      destruct H as [[_ [-> ->]]|[_ [-> ->]]]; split; auto.
    right. right. eauto.
Qed.

(** ** Locked objects *)
Lemma step_locked x c m r m' oid o : spec_step x c m r m' -> m !! oid = Some (o, ∅) ->
  m' !! oid = Some (o, ∅) /\ (call_oid c = Some oid -> refused (o_who x) r) /\ r <> Ok (ROid oid).
Proof.
  intros H Hm. assert (NA : forall who need, ~ allowed who need ∅).
  { intros who need (i & _ & _ & Hl). apply on_list_has in Hl as (y & _ & Hin). set_solver. }
  split; [|split].
  - destruct (decide (call_oid c = Some oid)) as [Ho|Ho].
    + destruct (call_scope c) as [need|] eqn:En; [|destruct c; discriminate].
      destruct (step_decision x c m r m' need oid o ∅ H En Ho Hm) as [_ D]. destruct (D (NA _ need)) as [_ ->]. exact Hm.
    + destruct c; cbn [spec_step call_oid] in *; unfold with_access, with_scope, or_random, refuse in H; destruct (o_who x) as [i| |];
        repeat match goal with
        | H : _ \/ _ |- _ => destruct H as [H|H]
        | H : exists _, _ |- _ => destruct H
        | H : _ /\ _ |- _ => destruct H
        | H : match ?m !! ?o with _ => _ end |- _ => let E := fresh "E" in destruct (m !! o) as [[? ?]|] eqn:E
        end; subst; try exact Hm; rewrite ?lookup_insert_ne, ?lookup_delete_ne by congruence; exact Hm.
  - intros Ho. destruct (call_scope c) as [need|] eqn:En; [|destruct c; discriminate].
    destruct (step_decision x c m r m' need oid o ∅ H En Ho Hm) as [_ D]. apply (D (NA _ need)).
  - intros ->. destruct c; cbn [spec_step] in *; unfold with_access, with_scope, or_random, refuse in H; destruct (o_who x) as [i| |];
        repeat match goal with
        | H : _ \/ _ |- _ => destruct H as [H|H]
        | H : exists _, _ |- _ => destruct H
        | H : _ /\ _ |- _ => destruct H
        | H : match ?m !! ?o with _ => _ end |- _ => let E := fresh "E" in destruct (m !! o) as [[? ?]|] eqn:E
        end; try discriminate; try congruence;
    match goal with H : forall y, _ -> exists t, _ |- _ => destruct (H _ eq_refl); discriminate end.
Qed.
Lemma history_locked evs : forall m m' oid o, spec_history m evs m' -> m !! oid = Some (o, ∅) ->
  m' !! oid = Some (o, ∅) /\ Forall (fun ev => (about oid ev -> refused (o_who (ev_outside ev)) (ev_reply ev)) /\ ~ creates oid ev) evs.
Proof.
  induction evs as [|[x c r] evs IH]; intros m m' oid o H Hm; inversion H; subst; [auto|].
  cbn [ev_outside ev_call ev_reply] in *.
  match goal with HS : spec_step _ _ _ _ ?m1, HH : spec_history _ _ _ |- _ =>
    destruct (step_locked _ _ _ _ _ oid o HS Hm) as (S1 & S2 & S3); destruct (IH _ _ _ _ HH S1) as [I1 I2] end.
  split; [exact I1|]. constructor; [|exact I2]. split; [exact S2|exact S3].
Qed.

(** ** Quiet objects: calls that do not name [oid] leave it alone *)
Lemma step_quiet x c m r m' oid : spec_step x c m r m' -> call_oid c <> Some oid -> r <> Ok (ROid oid) -> m' !! oid = m !! oid.
Proof.
  intros H Ho Hr. destruct c; cbn [spec_step call_oid] in *; unfold with_access, with_scope, or_random, refuse in H; destruct (o_who x) as [i| |];
    repeat match goal with
    | H : _ \/ _ |- _ => destruct H as [H|H]
    | H : exists _, _ |- _ => destruct H
    | H : _ /\ _ |- _ => destruct H
    | H : match ?m !! ?o with _ => _ end |- _ => let E := fresh "E" in destruct (m !! o) as [[? ?]|] eqn:E
    end; subst; try reflexivity; rewrite ?lookup_insert_ne, ?lookup_delete_ne by congruence; reflexivity.
Qed.
