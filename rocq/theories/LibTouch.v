(** What the steps of a call may change, wherever other calls have got to. *)
From Coq Require Import ZifyN ZifyNat.
From stdpp Require Import gmap.
From Verif Require Import Bytes Go Json JsonProofs Uuid Time Types TypesProofs World Cryptor Io IoSpec IoProofs Id Data D1 D1Proofs D1ConcSpec D1Conc
  Password Standalone StandaloneSpec SaConcSpec Index IndexSpec IndexConcSpec IndexOwnSpec Foot Lib LibSpec LibHist LibConcSpec.
Local Open Scope bool_scope.
Local Open Scope N_scope.

(** ** The providers *)
Lemma look_insert_other key (Hinj : forall id dt id' dt', dt < 65536 -> dt' < 65536 -> key id dt = key id' dt' -> id = id' /\ dt = dt') (s : gmap bytes bytes) id dt b id' dt' :
  dt < 65536 -> (id', dt') <> (id, dt) -> key_look key (<[key id dt := b]> s) id' dt' = key_look key s id' dt'.
Proof.
  intros Hdt Hne. rewrite (look_insert key Hinj s id dt b Hdt). unfold upd. destruct (bytes_eqb id' id) eqn:E1; [|reflexivity]. destruct (N.eqb_spec dt' dt) as [->|]; [|reflexivity].
  apply bytes_eqb_eq in E1. subst. congruence.
Qed.
Lemma look_delete_other key (Hinj : forall id dt id' dt', dt < 65536 -> dt' < 65536 -> key id dt = key id' dt' -> id = id' /\ dt = dt') (s : gmap bytes bytes) id dt id' dt' :
  dt < 65536 -> (id', dt') <> (id, dt) -> key_look key (delete (key id dt) s) id' dt' = key_look key s id' dt'.
Proof.
  intros Hdt Hne. rewrite (look_delete key Hinj s id dt Hdt). unfold upd. destruct (bytes_eqb id' id) eqn:E1; [|reflexivity]. destruct (N.eqb_spec dt' dt) as [->|]; [|reflexivity].
  apply bytes_eqb_eq in E1. subst. congruence.
Qed.
Lemma mem_entrywise : entrywise mem_view Mem.
Proof.
  constructor.
  - intros id dt b Hdt Hb. cbn. intros s _. split; [exact Logic.I|]. split; [reflexivity|]. destruct (s !! _); cbn; [exact Logic.I|]. intros s2 _. split; [exact Logic.I|].
    split; [|exact Logic.I]. intros. now apply (look_insert_other mem_key mem_key_inj).
  - intros id dt b Hdt Hb. cbn. intros s _. split; [exact Logic.I|]. split; [reflexivity|]. destruct (s !! _); cbn; [|exact Logic.I]. intros s2 _. split; [exact Logic.I|].
    split; [|exact Logic.I]. intros. now apply (look_insert_other mem_key mem_key_inj).
  - intros id dt Hdt. cbn. intros s _. split; [exact Logic.I|]. split; [|exact Logic.I]. intros. now apply (look_delete_other mem_key mem_key_inj).
Qed.
Lemma bolt_entrywise : entrywise bolt_view Bolt.
Proof.
  constructor.
  - intros id dt b Hdt Hb. cbn. intros s Hs. destruct (s !! _); cbn; [split; [exact Hs|]; split; [reflexivity|exact Logic.I]|].
    split; [now apply bolt_insert_inv|]. split; [|exact Logic.I]. intros. now apply (look_insert_other bolt_key bolt_key_inj).
  - intros id dt b Hdt Hb. cbn. intros s Hs. destruct (s !! _); cbn; [|split; [exact Hs|]; split; [reflexivity|exact Logic.I]].
    split; [now apply bolt_insert_inv|]. split; [|exact Logic.I]. intros. now apply (look_insert_other bolt_key bolt_key_inj).
  - intros id dt Hdt. cbn. intros s Hs. split; [|split; [|exact Logic.I]; intros; now apply (look_delete_other bolt_key bolt_key_inj)].
    intros k. destruct (decide (bolt_key id dt = k)) as [->|Hne]; [rewrite lookup_delete; congruence|]. rewrite lookup_delete_ne by exact Hne. apply Hs.
Qed.

Section Tch.
  Context {S I : Type} (v : view S).
  Notation W := (world S I).
  Context (T : N -> Prop).
  (** Only data of the kinds in [T] changes, and the random source goes on. *)
  Definition shift (w w' : W) : Prop :=
    v_inv v (w_io w') /\ (w_draws w <= w_draws w')%nat /\ forall id dt, ~ T dt -> v_map v (w_io w') id dt = v_map v (w_io w) id dt.
  Fixpoint tch {A} (p : prog W A) : Prop :=
    match p with
    | Ret _ => True
    | Step f k => forall w, v_inv v (w_io w) -> shift w (snd (f w)) /\ tch (k (fst (f w)))
    end.
  Lemma tch_ret {A} (a : A) : tch (Ret a : prog W A).
  Proof. exact Logic.I. Qed.
  Lemma tch_bind {A B} (p : prog W A) (k : A -> prog W B) : tch p -> (forall a, tch (k a)) -> tch (bind p k).
  Proof. intros H Hk. induction p as [b|X f q IH]; cbn [tch bind] in *; [auto|]. intros w Hw. destruct (H w Hw). auto. Qed.
  Lemma tch_bindR {A B} (p : prog W (res A)) (k : A -> prog W (res B)) : tch p -> (forall a, tch (k a)) -> tch (bindR p k).
  Proof. intros Hp Hk. apply tch_bind; [exact Hp|]. intros [a|x|]; auto using tch_ret. Qed.
  Lemma tch_map_err {A} f (p : prog W (res A)) : tch p -> tch (map_err f p).
  Proof. intros H. unfold map_err. apply tch_bind; [exact H|]. intros; apply tch_ret. Qed.
  Lemma tch_ret_map {A B} (f : A -> B) (p : prog W (res A)) : tch p -> tch (ret_map f p).
  Proof. intros H. unfold ret_map. apply tch_bind; [exact H|]. intros; apply tch_ret. Qed.
  Lemma tch_lift {A} (r : res A) : tch (lift r : prog W (res A)).
  Proof. exact Logic.I. Qed.
  Lemma tch_act {X} (f : W -> X * W) : (forall w, w_io (snd (f w)) = w_io w /\ (w_draws w <= w_draws (snd (f w)))%nat) -> tch (act f).
  Proof. intros H w Hw. destruct (H w) as [E1 E2]. split; [|exact Logic.I]. unfold shift. rewrite E1. auto. Qed.
  Context (e : env).
  Lemma tch_time : tch (time_now e : prog W _).
  Proof. apply tch_act. intros w. cbn. split; [reflexivity|lia]. Qed.
  Lemma tch_get_bytes n : tch (get_bytes e n : prog W _).
  Proof. apply tch_act. intros w. cbn. split; [reflexivity|lia]. Qed.
  Lemma tch_encrypt_json kek a b : tch (encrypt_json (aes_cryptor e kek) a b : prog W _).
  Proof.
    unfold encrypt_json. cbn [c_enc aes_cryptor]. unfold aes_enc. apply tch_bindR; [apply tch_get_bytes|intros key]. apply tch_bindR; [apply tch_get_bytes|intros nonce].
    apply tch_bindR; [apply tch_lift|intros ct]. apply tch_bindR; [apply tch_lift|intros wk]. apply tch_bind; [|intros; apply tch_ret].
    apply tch_act. intros w. cbn. split; [reflexivity|lia].
  Qed.
  Lemma tch_decrypt_json {A} kek (dec : json -> option A) a wk ct : tch (decrypt_json (aes_cryptor e kek) dec a wk ct : prog W _).
  Proof.
    unfold decrypt_json. apply tch_bindR; [|intros pt; destruct (unmarshal dec pt); apply tch_ret].
    cbn [c_dec aes_cryptor]. unfold aes_dec. apply tch_act. intros w. destruct (_ && _); cbn; (split; [reflexivity|lia]).
  Qed.
  Lemma tch_entry {A} id dt (p : prog S A) : T dt -> only_entry v id dt p -> tch (on_io p : prog W A).
  Proof.
    intros HT. induction p as [b|X f q IH]; cbn [only_entry on_io tch]; [auto|]. intros H w Hw. specialize (H (w_io w) Hw). destruct (f (w_io w)) as [x s] eqn:E. cbn [fst snd] in *.
    destruct H as (H1 & H2 & H3). split; [|now apply IH]. split; [exact H1|]. split; [cbn; lia|]. intros id' dt' Hn. cbn. apply H2. intros [= -> ->]. contradiction.
  Qed.
  Context (io : provider S) (Hio : cell_storage v io) (Hew : entrywise v io).
  Lemma tch_get id dt : dt < 65536 -> tch (on_io (io_get io id dt) : prog W _).
  Proof.
    intros Hdt. pose proof (cell_get v io Hio id dt Hdt) as H. destruct (io_get io id dt) as [b|X f q]; [destruct H|]. cbn [on_io tch]. intros w Hw.
    specialize (H (w_io w) Hw). destruct (f (w_io w)) as [x s]. cbn [fst snd] in *. destruct H as (H1 & H2 & H3). rewrite H3. split; [|exact Logic.I].
    split; [exact H1|]. split; [cbn; lia|]. intros id' dt' _. apply H2.
  Qed.
  Lemma tch_put id dt d : dt < 65536 -> d <> [] -> T dt -> tch (on_io (io_put io id dt d) : prog W _).
  Proof. intros. eapply tch_entry; [eassumption|]. now apply (ew_put v io Hew). Qed.
  Lemma tch_update id dt d : dt < 65536 -> d <> [] -> T dt -> tch (on_io (io_update io id dt d) : prog W _).
  Proof. intros. eapply tch_entry; [eassumption|]. now apply (ew_update v io Hew). Qed.
  Lemma tch_delete id dt : dt < 65536 -> T dt -> tch (on_io (io_delete io id dt) : prog W _).
  Proof. intros. eapply tch_entry; [eassumption|]. now apply (ew_delete v io Hew). Qed.
End Tch.

(** ** Standalone *)
Section Sa.
  Context {S I : Type} (e : env) (v : view S) (io : provider S) (Hio : cell_storage v io) (Hew : entrywise v io) (k : sa_keys).
  Notation W := (world S I).
  Notation SU := DataTypeSealedUser.
  Notation SG := DataTypeSealedGroup.
  Notation uc := (aes_cryptor e (s_uek k)).
  Notation gc := (aes_cryptor e (s_gek k)).
  Notation tc := (aes_cryptor e (s_tek k)).

  Section Any.
    Context (T : N -> Prop).
    Notation ft := (tch v T).
    Lemma tch_get_user uid : ft (get_user io uc uid : prog W _).
    Proof.
      unfold get_user. apply tch_bindR; [apply tch_map_err, (tch_get v _ io Hio); reflexivity|intros b].
      destruct (unmarshal dec_sealed_user b); [|apply tch_ret]. apply tch_decrypt_json.
    Qed.
    Lemma tch_get_groups gids : forall acc, ft (get_groups io gc gids acc : prog W _).
    Proof.
      induction gids as [|g gids IH]; intros acc; cbn [get_groups]; [apply tch_ret|].
      apply tch_bindR; [|intros; apply IH]. unfold get_group. apply tch_bindR; [apply tch_map_err, (tch_get v _ io Hio); reflexivity|intros b].
      destruct (unmarshal dec_sealed_group b); [|apply tch_ret]. apply tch_decrypt_json.
    Qed.
    Lemma tch_identity tok : ft (sa_get_identity e io uc gc tc tok : prog W _).
    Proof.
      unfold sa_get_identity, any_err. apply tch_bindR; [apply tch_map_err, tch_lift|intros st].
      apply tch_bindR; [apply tch_map_err; unfold token_unseal|intros t].
      - apply tch_bind; [apply tch_time|intros now]. destruct (time_before _ _); [apply tch_ret|]. destruct (enc_time _); [|apply tch_ret].
        apply tch_bindR; [apply tch_decrypt_json|intros; apply tch_ret].
      - apply tch_bindR; [apply tch_get_user|intros u]. apply tch_bindR; [apply tch_get_groups|intros; apply tch_ret].
    Qed.
  End Any.

  Notation fs := (tch v sa_writes).
  Lemma tch_put_user uid u b : fs (put_user io uc uid u b : prog W _).
  Proof.
    unfold put_user, user_seal. apply tch_bindR; [apply tch_bindR; [apply tch_encrypt_json|intros [? ?]; apply tch_ret]|intros su].
    destruct b; apply tch_map_err; [apply (tch_update v _ io Hew)|apply (tch_put v _ io Hew)]; try reflexivity; try apply print_obj_nonempty; now left.
  Qed.
  Lemma tch_put_group gid g : fs (put_group io gc gid g : prog W _).
  Proof.
    unfold put_group, group_seal. apply tch_bindR; [apply tch_bindR; [apply tch_encrypt_json|intros [? ?]; apply tch_ret]|intros sg].
    apply tch_map_err, (tch_put v _ io Hew); try reflexivity; try apply print_obj_nonempty; now right.
  Qed.
  Lemma tch_new_v4 T : tch v T (new_v4 e : prog W _).
  Proof. unfold new_v4. apply tch_bindR; [apply tch_get_bytes|intros; apply tch_ret]. Qed.
  Lemma tch_sa c : fs (sa_aes e io k c : prog W _).
  Proof.
    pose proof (tch_identity sa_writes) as GI.
    pose proof (tch_get_user sa_writes) as GU.
    assert (GP : fs (generate_password e : prog W _)).
    { unfold generate_password. apply tch_bindR; [apply tch_get_bytes|intros]. apply tch_bindR; [apply tch_get_bytes|intros; apply tch_ret]. }
    unfold sa_aes. destruct c; cbn [sa_do]; apply tch_ret_map.
    - unfold sa_new_user, new_user. apply tch_bindR; [apply tch_new_v4|intros]. apply tch_bindR; [apply tch_bindR; [exact GP|intros [? ?]; apply tch_ret]|intros [? ?]].
      apply tch_bindR; [apply tch_put_user|intros; apply tch_ret].
    - unfold sa_login, any_err. apply tch_map_err, tch_bindR; [apply GU|intros]. apply tch_bindR; [apply tch_lift|intros].
      apply tch_bind; [unfold new_token; apply tch_bind; [apply tch_time|intros; apply tch_ret]|intros t].
      apply tch_bindR; [unfold token_seal; destruct (enc_time _); [|apply tch_ret]; apply tch_bindR; [apply tch_encrypt_json|intros [? ?]; apply tch_ret]|intros].
      apply tch_bindR; [apply tch_lift|intros; apply tch_ret].
    - unfold sa_change_password, any_err, change_password. apply tch_bindR; [apply tch_map_err, GU|intros].
      apply tch_bindR; [apply tch_map_err; apply tch_bindR; [apply tch_lift|intros]; apply tch_bindR; [exact GP|intros [? ?]; apply tch_ret]|intros [? ?]].
      apply tch_bindR; [apply tch_put_user|intros; apply tch_ret].
    - unfold sa_add_user. apply tch_bindR; [apply GI|intros]. destruct (negb _); [apply tch_ret|]. apply tch_bindR; [apply GU|intros].
      apply tch_bindR; [apply tch_lift|intros]. apply tch_put_user.
    - unfold sa_remove_user. apply tch_bindR; [apply GI|intros]. destruct (negb _); [apply tch_ret|]. apply tch_bindR; [apply GU|intros]. apply tch_put_user.
    - unfold sa_delete_user. apply tch_bindR; [apply GI|intros]. apply (tch_delete v _ io Hew); [reflexivity|now left].
    - unfold sa_new_group. apply tch_bindR; [apply GI|intros]. apply tch_bindR; [apply tch_new_v4|intros gid]. apply tch_bindR; [apply tch_put_group|intros _].
      apply tch_bindR; [apply GU|intros u]. apply tch_bindR; [apply tch_lift|intros gs].
      apply tch_bindR; [apply tch_put_user|intros _]. apply tch_ret.
    - apply GI.
  Qed.

End Sa.

(** ** D1 *)
Section D1.
  Context {S I : Type} (e : env) (v : view S) (io : provider S) (Hio : cell_storage v io) (Hew : entrywise v io).
  Notation W := (world S I).
  Notation SO := DataTypeSealedObject.
  Notation SA := DataTypeSealedAccess.
  Context (idp : bytes -> prog W (res identity)) (d : d1).
  Notation fd := (tch v d1_writes).
  Hypothesis Hidp : forall tok, fd (idp tok).
  Lemma tch_d1 c : fd (d1_aes e io idp d c).
  Proof.
    assert (HV : forall tok need, fd (verify_access idp tok need)).
    { intros. unfold verify_access. apply tch_bind; [apply Hidp|]. intros [i|x|]; try apply tch_ret. destruct (scope_contains _ _); apply tch_ret. }
    assert (HGA : forall oid, fd (get_sealed_access io oid : prog W _)).
    { intros. unfold get_sealed_access. apply tch_bindR; [apply tch_map_err, (tch_get v _ io Hio); reflexivity|]. intros b. destruct (unmarshal _ _); apply tch_ret. }
    assert (HGO : forall oid, fd (get_sealed_object io oid : prog W _)).
    { intros. unfold get_sealed_object. apply tch_bindR; [apply tch_map_err, (tch_get v _ io Hio); reflexivity|]. intros b. destruct (unmarshal _ _); apply tch_ret. }
    assert (HAZ : forall i need sa, fd (authorize_access (aes_cryptor e (d_aek d)) i need sa : prog W _)).
    { intros. unfold authorize_access, access_unseal. apply tch_bindR; [apply tch_decrypt_json|]. intros a. destruct (authorized _ _ _); apply tch_ret. }
    assert (HOS : forall o oid, fd (object_seal (aes_cryptor e (d_kek d)) o oid : prog W _)).
    { intros. unfold object_seal. apply tch_bindR; [apply tch_encrypt_json|]. intros [wk ct]. apply tch_ret. }
    assert (HAS : forall a oid, fd (access_seal (aes_cryptor e (d_aek d)) a oid : prog W _)).
    { intros. unfold access_seal. apply tch_bindR; [apply tch_encrypt_json|]. intros [wk ct]. apply tch_ret. }
    assert (HPO : forall so u, fd (put_sealed_object io so u : prog W _)).
    { intros; unfold put_sealed_object; destruct u; apply tch_map_err; [apply (tch_update v _ io Hew)|apply (tch_put v _ io Hew)]; try reflexivity; try apply print_obj_nonempty; now left. }
    assert (HPA : forall so u, fd (put_sealed_access io so u : prog W _)).
    { intros; unfold put_sealed_access; destruct u; apply tch_map_err; [apply (tch_update v _ io Hew)|apply (tch_put v _ io Hew)]; try reflexivity; try apply print_obj_nonempty; now right. }
    unfold d1_aes. destruct c; cbn [d1_do]; apply tch_ret_map.
    - unfold d1_encrypt. apply tch_bindR; [apply HV|intros i]. apply tch_bindR; [apply tch_new_v4|intros oid].
      apply tch_bindR; [apply HOS|intros [dek so]]. apply tch_bindR; [apply tch_lift|intros gs]. apply tch_bindR; [apply HAS|intros sa].
      apply tch_bindR; [apply HPO|intros _]. apply tch_bindR; [apply HPA|intros _]. apply tch_ret.
    - unfold d1_update. apply tch_bindR; [apply HV|intros i]. apply tch_bindR; [apply HGA|intros sa]. apply tch_bindR; [apply HAZ|intros a].
      apply tch_bindR; [apply HOS|intros [dek so]]. apply tch_bindR; [apply HAS|intros sa'].
      apply tch_bindR; [apply HPO|intros _]. apply tch_bindR; [apply HPA|intros _]. apply tch_ret.
    - unfold d1_decrypt. apply tch_bindR; [apply HV|intros i]. apply tch_bindR; [apply HGA|intros sa]. apply tch_bindR; [apply HAZ|intros a].
      apply tch_bindR; [apply HGO|intros so]. unfold object_unseal. apply tch_bindR; [apply tch_decrypt_json|intros; apply tch_ret].
    - unfold d1_delete. apply tch_bindR; [apply HV|intros i]. apply tch_bind; [apply HGA|intros [sa|x|]]; [|destruct x; apply tch_ret|apply tch_ret].
      apply tch_bindR; [apply HAZ|intros a].
      apply tch_bindR; [apply (tch_delete v _ io Hew); [reflexivity|now left]|intros _].
      apply tch_bindR; [apply (tch_delete v _ io Hew); [reflexivity|now right]|intros _]. apply tch_ret.
    - unfold d1_get_access_groups. apply tch_bindR; [apply HV|intros i]. apply tch_bindR; [apply HGA|intros sa]. apply tch_bindR; [apply HAZ|intros a]. apply tch_ret.
    - unfold d1_add_groups. apply tch_bindR; [apply HV|intros i]. apply tch_bindR; [apply HGA|intros sa]. apply tch_bindR; [apply HAZ|intros a].
      apply tch_bindR; [apply tch_lift|intros gs]. apply tch_bindR; [apply HAS|intros sa']. apply HPA.
    - unfold d1_remove_groups. apply tch_bindR; [apply HV|intros i]. apply tch_bindR; [apply HGA|intros sa]. apply tch_bindR; [apply HAZ|intros a].
      apply tch_bindR; [apply HAS|intros sa']. apply HPA.
    - unfold d1_authorize. apply tch_bindR; [apply HV|intros i]. apply tch_bindR; [apply HGA|intros sa]. apply tch_bindR; [apply HAZ|intros a]. apply tch_ret.
    - unfold d1_create_token, new_token, token_seal. apply tch_bind; [apply tch_bind; [apply tch_time|intros; apply tch_ret]|intros t].
      destruct (enc_time _); [|apply tch_ret]. apply tch_bindR; [apply tch_encrypt_json|intros [wk ct]; apply tch_ret].
    - unfold d1_get_token_contents, token_unseal. apply tch_bindR; [|intros; apply tch_ret]. apply tch_bind; [apply tch_time|intros now].
      destruct (time_before _ _); [apply tch_ret|]. destruct (enc_time _); [|apply tch_ret]. apply tch_bindR; [apply tch_decrypt_json|intros; apply tch_ret].
  Qed.
End D1.

(** ** Index *)
Section Ix.
  Context {S I : Type} (e : env) (v : view S) (io : provider S) (Hio : cell_storage v io) (Hew : entrywise v io).
  Notation W := (world S I).
  Notation SN := DataTypeSealedNode.
  Context (idp : bytes -> prog W (res identity)) (iek : bytes) (fuel : nat).
  Notation fi := (tch v ix_writes).
  Hypothesis Hidp : forall tok, fi (idp tok).
  Lemma tch_get_next tk kek cur : fi (get_next_node e io tk kek cur : prog W _).
  Proof.
    unfold get_next_node. apply tch_bindR; [apply tch_lift|intros l]. apply tch_bindR; [|intros sn; apply tch_decrypt_json].
    unfold get_sealed_node. apply tch_bindR; [apply tch_map_err, (tch_get v _ io Hio); reflexivity|intros b]. destruct (unmarshal _ b); apply tch_ret.
  Qed.
  Lemma tch_get_last tk kek n : forall cur, fi (get_last_node e io tk kek n cur : prog W _).
  Proof.
    induction n as [|n IH]; intros cur; [apply tch_ret|]. cbn [get_last_node]. apply tch_bind; [apply tch_get_next|].
    intros [nx|x|]; [apply IH|destruct x; apply tch_ret|apply tch_ret].
  Qed.
  Lemma tch_search tk kek n : forall cur found, fi (search_loop e io tk kek n cur found : prog W _).
  Proof.
    induction n as [|n IH]; intros cur found; [apply tch_ret|]. cbn [search_loop]. apply tch_bind; [apply tch_get_next|].
    intros [nx|x|]; [apply IH|destruct x; apply tch_ret|apply tch_ret].
  Qed.
  Lemma tch_seal kek n l : fi (node_seal (aes_cryptor e kek) n l : prog W _).
  Proof. unfold node_seal. apply tch_bindR; [apply tch_encrypt_json|]. intros [wk ct]. apply tch_ret. Qed.
  Lemma tch_put_node l sn u : fi (put_sealed_node io l sn u : prog W _).
  Proof.
    unfold put_sealed_node. destruct u; apply tch_map_err; [apply (tch_update v _ io Hew)|apply (tch_put v _ io Hew)];
      try reflexivity; apply print_obj_nonempty.
  Qed.
  Lemma tch_delete_node tk kek l n : fi (delete_node e io tk kek l n : prog W _).
  Proof.
    unfold delete_node. apply tch_bind; [apply tch_get_next|].
    assert (HD : forall l, fi (delete_sealed_node io l : prog W _)) by (intros; apply (tch_delete v _ io Hew); reflexivity).
    intros [nx|x|]; [|destruct x; first [apply HD|apply tch_ret]|apply tch_ret].
    apply tch_bindR; [apply tch_seal|intros sn]. apply tch_bindR; [apply tch_put_node|intros _].
    apply tch_bindR; [apply tch_lift|intros l']. apply HD.
  Qed.
  Lemma tch_delete_loop tk kek n y : forall cur, fi (delete_loop e io tk kek n cur y : prog W _).
  Proof.
    induction n as [|n IH]; intros cur; [apply tch_ret|]. cbn [delete_loop]. apply tch_bind; [apply tch_get_next|].
    intros [nx|x|]; [|destruct x; apply tch_ret|apply tch_ret].
    destruct (bytes_eqb _ _); [|apply IH]. apply tch_bindR; [apply tch_lift|intros l].
    apply tch_bindR; [apply tch_delete_node|intros _; apply IH].
  Qed.
  Lemma tch_ix c : fi (ix_do e io idp iek fuel c).
  Proof.
    assert (HV : forall tok, fi (ix_verify idp tok)).
    { intros. unfold ix_verify. apply tch_bind; [apply Hidp|]. intros [i|x|]; [|apply tch_ret..]. destruct (scope_contains _ _); apply tch_ret. }
    assert (HL : forall kw A (g : bytes * bytes -> prog W (res A)), (forall tk kek, fi (g (tk, kek))) ->
      fi (bindR (lift (ix_keys iek kw)) g)).
    { intros kw A g Hg. unfold lift, bindR, bind. destruct (ix_keys iek kw) as [[tk kek]|x|]; [|apply tch_ret..].
      apply Hg. }
    destruct c as [tok kw y|tok kw|tok kw y]; cbn [ix_do ix_keyword] in *; apply tch_ret_map.
    - unfold ix_add. apply tch_bindR; [apply HV|intros _]. apply HL; intros tk kek.
      apply tch_bindR; [apply tch_get_last|intros last]. apply tch_bindR; [apply tch_lift|intros l].
      apply tch_bindR; [apply tch_seal|intros sn]. apply tch_put_node.
    - unfold ix_search. apply tch_bindR; [apply HV|intros _]. apply HL; intros tk kek. apply tch_search.
    - unfold ix_delete. apply tch_bindR; [apply HV|intros _]. apply HL; intros tk kek. apply tch_delete_loop.
  Qed.
End Ix.
