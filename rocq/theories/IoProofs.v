(** The shipped providers implement the map. *)
From Coq Require Import ZifyN ZifyNat.
From stdpp Require Import gmap.
From Verif Require Import Bytes Go Json JsonProofs Uuid UuidProofs World Logic Io IoSpec.
Local Open Scope bool_scope.
Local Open Scope N_scope.

Lemma seq_refl m : seq m m.
Proof. intros ??; reflexivity. Qed.
Lemma seq_sym m m' : seq m m' -> seq m' m.
Proof. intros H ??; symmetry; apply H. Qed.
Lemma seq_trans a b c : seq a b -> seq b c -> seq a c.
Proof. intros H1 H2 ??; etransitivity; [apply H1|apply H2]. Qed.
Lemma upd_seq m m' id dt v : seq m m' -> seq (upd m id dt v) (upd m' id dt v).
Proof. intros H i d. unfold upd. destruct (_ && _); auto. Qed.
Lemma upd_same m id dt v : upd m id dt v id dt = v.
Proof. unfold upd. now rewrite (proj2 (bytes_eqb_eq id id) eq_refl), N.eqb_refl. Qed.
Lemma upd_other m id dt v id' dt' : (id', dt') <> (id, dt) -> upd m id dt v id' dt' = m id' dt'.
Proof.
  intros H. unfold upd. destruct (bytes_eqb id' id) eqn:E; cbn [andb]; [|reflexivity].
  apply bytes_eqb_eq in E. destruct (N.eqb_spec dt' dt); [|reflexivity]. subst. congruence.
Qed.
Lemma upd_upd m id dt v v' : seq (upd (upd m id dt v) id dt v') (upd m id dt v').
Proof. intros i d. unfold upd. destruct (_ && _); reflexivity. Qed.
Lemma upd_id m id dt : seq (upd m id dt (m id dt)) m.
Proof.
  intros i d. unfold upd. destruct (bytes_eqb i id) eqn:E; cbn [andb]; [|reflexivity].
  apply bytes_eqb_eq in E. destruct (N.eqb_spec d dt); [|reflexivity]. now subst.
Qed.
Lemma upd_comm m id dt v id' dt' v' : (id', dt') <> (id, dt) ->
  seq (upd (upd m id dt v) id' dt' v') (upd (upd m id' dt' v') id dt v).
Proof.
  intros H i d. unfold upd. destruct (bytes_eqb i id) eqn:E1, (bytes_eqb i id') eqn:E2; cbn [andb];
    destruct (N.eqb_spec d dt), (N.eqb_spec d dt'); try reflexivity.
  apply bytes_eqb_eq in E1, E2. subst. congruence.
Qed.

(** ** Keys *)
Lemma hex_nocolon id b : In b (hex_encode id) -> b <> x3a.
Proof.
  intros H ->. pose proof (proj1 (forallb_forall _ _) (hex_encode_chars id) _ H) as C. vm_compute in C. discriminate.
Qed.
Lemma split_colon a b a' b' : (forall x, In x a -> x <> x3a) -> (forall x, In x a' -> x <> x3a) ->
  a ++ x3a :: b = a' ++ x3a :: b' -> a = a' /\ b = b'.
Proof.
  revert a'. induction a as [|x a IH]; intros [|x' a'] H H' E; cbn [app] in E.
  - injection E as ->. auto.
  - injection E as E1 E2. exfalso. apply (H' x'); [now left|congruence].
  - injection E as E1 E2. exfalso. apply (H x); [now left|congruence].
  - injection E as -> E. destruct (IH a') as [-> ->]; auto; intros y Hy; [apply H|apply H']; now right.
Qed.
Lemma dec_print_inj a b : a < 2 ^ 64 -> b < 2 ^ 64 -> dec_print a = dec_print b -> a = b.
Proof.
  intros Ha Hb E. pose proof (dec_print_spec a Ha) as A. pose proof (dec_print_spec b Hb) as B.
  rewrite E in A. destruct A as (A & _), B as (B & _). congruence.
Qed.
Lemma mem_key_inj id dt id' dt' : dt < 65536 -> dt' < 65536 ->
  mem_key id dt = mem_key id' dt' -> id = id' /\ dt = dt'.
Proof.
  intros H H' E. unfold mem_key in E. change (str ":") with [x3a] in E. cbn [app] in E.
  apply split_colon in E as [E1 E2]; [|intros x; apply hex_nocolon..].
  apply hex_encode_inj in E1. apply dec_print_inj in E2; [auto|lia..].
Qed.
Lemma bolt_key_inj id dt id' dt' : dt < 65536 -> dt' < 65536 ->
  bolt_key id dt = bolt_key id' dt' -> id = id' /\ dt = dt'.
Proof.
  intros H H' E. unfold bolt_key, dt_bytes in E.
  assert (L : length id = length id').
  { apply (f_equal (@length byte)) in E. rewrite !app_length in E. cbn in E. lia. }
  apply app_inj_1 in E as [-> E]; [|exact L]. split; [reflexivity|].
  injection E as E1 E2. apply (f_equal bN) in E1, E2. rewrite !bN_Nb_mod in E1, E2.
  Ltac Zify.zify_post_hook ::= Z.to_euclidean_division_equations. lia.
Qed.

(** ** Views *)
(** The map a set of keyed entries stands for; a data type is a uint16. *)
Definition key_look (key : bytes -> N -> bytes) (m : gmap bytes bytes) : store :=
  fun id dt => if dt <? 65536 then m !! key id dt else None.
Definition mem_view : view mem := mkView (fun _ => True) (key_look mem_key).
Definition bolt_view : view bolt :=
  mkView (fun m => forall k, m !! k <> Some []) (key_look bolt_key).

Section KeyView.
  Context (key : bytes -> N -> bytes).
  Context (key_inj : forall id dt id' dt', dt < 65536 -> dt' < 65536 -> key id dt = key id' dt' -> id = id' /\ dt = dt').
  Notation look := (key_look key).
  Lemma look_at m id dt : dt < 65536 -> look m id dt = m !! key id dt.
  Proof. intros H. unfold key_look. now rewrite (proj2 (N.ltb_lt _ _) H). Qed.
  Lemma look_insert m id dt d : dt < 65536 -> seq (look (<[key id dt := d]> m)) (upd (look m) id dt (Some d)).
  Proof.
    intros H i t. unfold key_look, upd. destruct (N.ltb_spec t 65536) as [Ht|Ht].
    - destruct (bytes_eqb i id) eqn:Ei; cbn [andb].
      + apply bytes_eqb_eq in Ei. subst. destruct (N.eqb_spec t dt) as [->|Hne].
        * apply lookup_insert.
        * apply lookup_insert_ne. intros E. apply key_inj in E as [_ E]; auto.
      + apply lookup_insert_ne. intros E. apply key_inj in E as [E _]; auto. subst.
        rewrite (proj2 (bytes_eqb_eq i i) eq_refl) in Ei. discriminate.
    - destruct (N.eqb_spec t dt); [lia|]. now rewrite Bool.andb_false_r.
  Qed.
  Lemma look_delete m id dt : dt < 65536 -> seq (look (delete (key id dt) m)) (upd (look m) id dt None).
  Proof.
    intros H i t. unfold key_look, upd. destruct (N.ltb_spec t 65536) as [Ht|Ht].
    - destruct (bytes_eqb i id) eqn:Ei; cbn [andb].
      + apply bytes_eqb_eq in Ei. subst. destruct (N.eqb_spec t dt) as [->|Hne].
        * apply lookup_delete.
        * apply lookup_delete_ne. intros E. apply key_inj in E as [_ E]; auto.
      + apply lookup_delete_ne. intros E. apply key_inj in E as [E _]; auto. subst.
        rewrite (proj2 (bytes_eqb_eq i i) eq_refl) in Ei. discriminate.
    - destruct (N.eqb_spec t dt); [lia|]. now rewrite Bool.andb_false_r.
  Qed.
End KeyView.

Lemma mem_spec F : io_spec F mem_view Mem.
Proof.
  constructor.
  - intros id dt d Hdt Hd s _. cbn [v_map mem_view v_inv Mem io_put].
    pose proof (look_at mem_key s id dt Hdt) as L. pose proof (look_insert mem_key mem_key_inj s id dt d Hdt) as E.
    unfold map_put, mem_put, mem_load, mem_store. rewrite L. cbn.
    destruct (s !! mem_key id dt) eqn:Hk; cbn; rewrite ?Hk; cbn; repeat split; auto using seq_refl.
  - intros id dt Hdt s _. cbn [v_map mem_view v_inv Mem io_get].
    pose proof (look_at mem_key s id dt Hdt) as L.
    unfold map_get, mem_get, mem_load. rewrite L. cbn. repeat split; auto using seq_refl.
  - intros id dt d Hdt Hd s _. cbn [v_map mem_view v_inv Mem io_update].
    pose proof (look_at mem_key s id dt Hdt) as L. pose proof (look_insert mem_key mem_key_inj s id dt d Hdt) as E.
    unfold map_update, mem_update, mem_load, mem_store. rewrite L. cbn.
    destruct (s !! mem_key id dt) eqn:Hk; cbn; rewrite ?Hk; cbn; repeat split; auto using seq_refl.
  - intros id dt Hdt s _. cbn [v_map mem_view v_inv Mem io_delete].
    pose proof (look_delete mem_key mem_key_inj s id dt Hdt) as E.
    cbn. repeat split; auto using seq_refl.
Qed.

Lemma bolt_spec F : io_spec F bolt_view Bolt.
Proof.
  assert (INS : forall (s : bolt) k d, d <> [] -> (forall k, s !! k <> Some []) -> forall k', <[k := d]> s !! k' <> Some []).
  { intros s k d Hd H k'. destruct (decide (k = k')) as [->|Hne]; [rewrite lookup_insert; congruence|].
    rewrite lookup_insert_ne by auto. auto. }
  assert (DEL : forall (s : bolt) k, (forall k, s !! k <> Some []) -> forall k', delete k s !! k' <> Some []).
  { intros s k H k'. destruct (decide (k = k')) as [->|Hne]; [rewrite lookup_delete; congruence|].
    rewrite lookup_delete_ne by auto. auto. }
  constructor.
  - intros id dt d Hdt Hd s Hs. cbn [v_map bolt_view v_inv Bolt io_put] in *.
    pose proof (look_at bolt_key s id dt Hdt) as L. pose proof (look_insert bolt_key bolt_key_inj s id dt d Hdt) as E.
    unfold map_put, bolt_put. rewrite L. cbn.
    destruct (s !! bolt_key id dt) eqn:Hk; cbn; rewrite ?Hk; cbn; repeat split; auto using seq_refl.
  - intros id dt Hdt s Hs. cbn [v_map bolt_view v_inv Bolt io_get] in *.
    pose proof (look_at bolt_key s id dt Hdt) as L.
    unfold map_get, bolt_get. rewrite L. cbn.
    repeat split; auto using seq_refl. left. split; [|apply seq_refl].
    destruct (s !! bolt_key id dt) as [[|b l]|] eqn:Hk; auto. destruct (Hs _ Hk).
  - intros id dt d Hdt Hd s Hs. cbn [v_map bolt_view v_inv Bolt io_update] in *.
    pose proof (look_at bolt_key s id dt Hdt) as L. pose proof (look_insert bolt_key bolt_key_inj s id dt d Hdt) as E.
    unfold map_update, bolt_update. rewrite L. cbn.
    destruct (s !! bolt_key id dt) eqn:Hk; cbn; rewrite ?Hk; cbn; repeat split; auto using seq_refl.
  - intros id dt Hdt s Hs. cbn [v_map bolt_view v_inv Bolt io_delete] in *.
    pose proof (look_delete bolt_key bolt_key_inj s id dt Hdt) as E.
    cbn. repeat split; auto using seq_refl.
Qed.

Lemma proxy_same {S} (impl : provider S) : proxy_provider (new_proxy impl) = impl.
Proof. destruct impl. reflexivity. Qed.
