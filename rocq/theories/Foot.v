(** What a program may change, wherever it is cut: the kinds of data it writes, the keys it encrypts
    under, and whether it uses the random source. *)
From Coq Require Import ZifyN ZifyNat.
From stdpp Require Import gmap.
From Verif Require Import Bytes Go Json JsonProofs Uuid Time Types TypesProofs World Logic Cryptor CryptorProofs IoSpec IoProofs Id Data D1 D1Proofs Sched D1Sched WpcFacts
  Password Standalone StandaloneSpec IdAuthority StandaloneProofs StandaloneRefine Index IndexSpec IndexConcSpec Authority.
Local Open Scope bool_scope.
Local Open Scope N_scope.

Section Foot.
  Context {S I : Type} (e : env) (v : view S).
  Notation W := (world S I).
  Context (T : N -> Prop) (K : bytes -> Prop) (R : Prop).
  Notation store_of w := (v_map v (w_io w)).

  Definition moved (w w' : W) : Prop :=
    v_inv v (w_io w') /\ (forall id dt, ~ T dt -> store_of w' id dt = store_of w id dt) /\
    (exists new, w_log w' = new ++ w_log w /\ Forall (fun x => K (e_kek x)) new) /\
    (w_forged w = true -> w_forged w' = true) /\ (R \/ w_draws w' = w_draws w).
  Definition foot {A} (p : prog W A) : Prop := forall w, v_inv v (w_io w) -> wpc p (moved w) (fun _ w' => moved w w') w.

  Lemma moved_refl w : v_inv v (w_io w) -> moved w w.
  Proof. intros H. split; [exact H|]. split; [auto|]. split; [exists []; split; [reflexivity|constructor]|]. auto. Qed.
  Lemma moved_trans a b c : moved a b -> moved b c -> moved a c.
  Proof.
    intros (_ & A2 & (n1 & A3 & A4) & A5 & A6) (B1 & B2 & (n2 & B3 & B4) & B5 & B6). split; [exact B1|]. split; [|split; [|split]].
    - intros id dt H. rewrite B2 by exact H. auto.
    - exists (n2 ++ n1). split; [rewrite B3, A3; apply app_assoc|]. apply List.Forall_app. auto.
    - auto.
    - destruct A6 as [A6|A6]; [now left|]. destruct B6 as [B6|B6]; [now left|right; congruence].
  Qed.
  Lemma foot_ret {A} (a : A) : foot (Ret a : prog W A).
  Proof. intros w H. apply wpc_ret; now apply moved_refl. Qed.
  Lemma foot_bind {A B} (p : prog W A) (k : A -> prog W B) : foot p -> (forall a, foot (k a)) -> foot (bind p k).
  Proof.
    intros Hp Hk w H. apply wpc_bind. eapply wpc_mono; [| |exact (Hp w H)]; [auto|]. intros a w1 _ M1.
    eapply wpc_mono; [| |exact (Hk a w1 (proj1 M1))]; cbv beta.
    - intros w2 M2. exact (moved_trans _ _ _ M1 M2).
    - intros r w2 _ M2. exact (moved_trans _ _ _ M1 M2).
  Qed.
  Lemma foot_bindR {A B} (p : prog W (res A)) (k : A -> prog W (res B)) : foot p -> (forall a, foot (k a)) -> foot (bindR p k).
  Proof. intros Hp Hk. apply foot_bind; [exact Hp|]. intros [a|x|]; auto using foot_ret. Qed.
  Lemma foot_map_err {A} f (p : prog W (res A)) : foot p -> foot (map_err f p).
  Proof. intros H. unfold map_err. apply foot_bind; [exact H|]. intros; apply foot_ret. Qed.
  Lemma foot_ret_map {A B} (f : A -> B) (p : prog W (res A)) : foot p -> foot (ret_map f p).
  Proof. intros H. unfold ret_map. apply foot_bind; [exact H|]. intros; apply foot_ret. Qed.
  Lemma foot_lift {A} (r : res A) : foot (lift r : prog W (res A)).
  Proof. apply foot_ret. Qed.
  Lemma foot_act {X} (f : W -> X * W) : (forall w, v_inv v (w_io w) -> moved w (snd (f w))) -> foot (act f).
  Proof. intros H w Hi. apply wpc_act; [now apply moved_refl|auto|auto]. Qed.

  Lemma foot_time : foot (time_now e : prog W _).
  Proof. apply foot_act. intros w H. cbn [snd]. split; [exact H|]. split; [reflexivity|]. split; [exists []; split; [reflexivity|constructor]|]. auto. Qed.
  Lemma foot_get_bytes n : R -> foot (get_bytes e n : prog W _).
  Proof. intros HR. apply foot_act. intros w H. cbn [snd]. split; [exact H|]. split; [reflexivity|]. split; [exists []; split; [reflexivity|constructor]|]. auto. Qed.
  Lemma foot_enc kek pt aad : R -> K kek -> foot (aes_enc e kek pt aad : prog W _).
  Proof.
    intros HR HK. unfold aes_enc. apply foot_bindR; [now apply foot_get_bytes|intros key]. apply foot_bindR; [now apply foot_get_bytes|intros nonce].
    apply foot_bindR; [apply foot_lift|intros ct]. apply foot_bindR; [apply foot_lift|intros wk]. apply foot_bind; [|intros; apply foot_ret].
    apply foot_act. intros w H. cbn [snd]. split; [exact H|]. split; [reflexivity|]. split; [|auto]. eexists [_]. split; [reflexivity|]. repeat constructor. exact HK.
  Qed.
  Lemma foot_encrypt_json kek a b : R -> K kek -> foot (encrypt_json (aes_cryptor e kek) a b : prog W _).
  Proof. apply foot_enc. Qed.
  Lemma foot_dec kek aad wk ct : foot (aes_dec kek aad wk ct : prog W _).
  Proof.
    apply foot_act. intros w H. cbn [snd]. destruct (_ && _); (split; [exact H|]; split; [reflexivity|]; split; [exists []; split; [reflexivity|constructor]|]; auto).
  Qed.
  Lemma foot_decrypt_json {A} kek (dec : json -> option A) a wk ct : foot (decrypt_json (aes_cryptor e kek) dec a wk ct : prog W _).
  Proof. unfold decrypt_json. apply foot_bindR; [apply foot_dec|intros pt]. destruct (unmarshal dec pt); apply foot_ret. Qed.

  Context (F : Prop) (io : provider S) (Hio : io_spec F v io).
  Lemma moved_holds (w w' : W) m : holds v m w' -> keep w w' -> (forall id dt, ~ T dt -> m id dt = store_of w id dt) -> moved w w'.
  Proof.
    intros [H1 H2] (L & D & _ & G) Hm. split; [exact H1|]. split; [intros; rewrite H2; auto|]. split; [exists []; split; [exact L|constructor]|].
    split; [congruence|now right].
  Qed.
  Lemma moved_upd (w w' : W) id dt x : T dt -> holds v (upd (store_of w) id dt x) w' -> keep w w' -> moved w w'.
  Proof.
    intros HT H Hk. eapply moved_holds; [exact H|exact Hk|]. intros id' dt' Hn. unfold upd. destruct (N.eqb_spec dt' dt) as [->|]; [contradiction|].
    now rewrite Bool.andb_false_r.
  Qed.
  Lemma moved_keep (w w' : W) : holds v (store_of w) w' -> keep w w' -> moved w w'.
  Proof. intros H Hk. eapply moved_holds; eauto. Qed.
  Lemma foot_get id dt : dt < 65536 -> foot (on_io (io_get io id dt) : prog W _).
  Proof.
    intros Hdt w H. eapply wpc_mono; [| |apply (io_get_post F v io Hio id dt w _ Hdt (holds_self v w H))]; cbv beta.
    - intros w' [A B]. now apply moved_keep.
    - intros r w' _ [[A _] B]. now apply moved_keep.
  Qed.
  Lemma foot_put id dt d : dt < 65536 -> d <> [] -> T dt -> foot (on_io (io_put io id dt d) : prog W _).
  Proof.
    intros Hdt Hd HT w H. eapply wpc_mono; [| |apply (io_put_post F v io Hio id dt d w _ Hdt Hd (holds_self v w H))]; cbv beta.
    - intros w' [[A|[_ A]] B]; eauto using moved_keep, moved_upd.
    - intros r w' _ [[(_ & _ & A)|[(_ & _ & A)|[_ [A|[_ A]]]]] B]; eauto using moved_keep, moved_upd.
  Qed.
  Lemma foot_update id dt d : dt < 65536 -> d <> [] -> T dt -> foot (on_io (io_update io id dt d) : prog W _).
  Proof.
    intros Hdt Hd HT w H. eapply wpc_mono; [| |apply (io_update_post F v io Hio id dt d w _ Hdt Hd (holds_self v w H))]; cbv beta.
    - intros w' [[A|[_ A]] B]; eauto using moved_keep, moved_upd.
    - intros r w' _ [[(_ & _ & A)|[(_ & _ & A)|[_ [A|[_ A]]]]] B]; eauto using moved_keep, moved_upd.
  Qed.
  Lemma foot_delete id dt : dt < 65536 -> T dt -> foot (on_io (io_delete io id dt) : prog W _).
  Proof.
    intros Hdt HT w H. eapply wpc_mono; [| |apply (io_delete_post F v io Hio id dt w _ Hdt (holds_self v w H))]; cbv beta.
    - intros w' [[A|A] B]; eauto using moved_keep, moved_upd.
    - intros r w' _ [[(_ & A)|[_ [A|A]]] B]; eauto using moved_keep, moved_upd.
  Qed.
End Foot.

Lemma foot_mono {S I A} (v : view S) (T T' : N -> Prop) (K K' : bytes -> Prop) (R R' : Prop) (p : prog (world S I) A) :
  (forall x, T x -> T' x) -> (forall x, K x -> K' x) -> (R -> R') -> foot v T K R p -> foot v T' K' R' p.
Proof.
  intros HT HK HR H w Hi. assert (M : forall w', moved v T K R w w' -> moved v T' K' R' w w').
  { intros w' (A0 & B & (new & C & D) & E & G). split; [exact A0|]. split; [auto|]. split; [|tauto]. exists new. split; [exact C|].
    eapply List.Forall_impl; [|exact D]. auto. }
  eapply wpc_mono; [| |exact (H w Hi)]; auto.
Qed.

(** ** Standalone *)
Section Sa.
  Context {S I : Type} (e : env) (F : Prop) (v : view S) (io : provider S) (Hio : io_spec F v io) (k : sa_keys).
  Notation W := (world S I).
  Notation SU := DataTypeSealedUser.
  Notation SG := DataTypeSealedGroup.
  Notation uc := (aes_cryptor e (s_uek k)).
  Notation gc := (aes_cryptor e (s_gek k)).
  Notation tc := (aes_cryptor e (s_tek k)).

  Section Any.
    Context (T : N -> Prop) (K : bytes -> Prop) (R : Prop).
    Notation ft := (foot v T K R).
    Lemma foot_get_user uid : ft (get_user io uc uid : prog W _).
    Proof.
      unfold get_user. apply foot_bindR; [apply foot_map_err, (foot_get v T K R F io Hio); reflexivity|intros b].
      destruct (unmarshal dec_sealed_user b); [|apply foot_ret]. apply foot_decrypt_json.
    Qed.
    Lemma foot_get_groups gids : forall acc, ft (get_groups io gc gids acc : prog W _).
    Proof.
      induction gids as [|g gids IH]; intros acc; cbn [get_groups]; [apply foot_ret|].
      apply foot_bindR; [|intros; apply IH]. unfold get_group. apply foot_bindR; [apply foot_map_err, (foot_get v T K R F io Hio); reflexivity|intros b].
      destruct (unmarshal dec_sealed_group b); [|apply foot_ret]. apply foot_decrypt_json.
    Qed.
    Lemma foot_identity tok : ft (sa_get_identity e io uc gc tc tok : prog W _).
    Proof.
      unfold sa_get_identity, any_err. apply foot_bindR; [apply foot_map_err, foot_lift|intros st].
      apply foot_bindR; [apply foot_map_err; unfold token_unseal|intros t].
      - apply foot_bind; [apply foot_time|intros now]. destruct (time_before _ _); [apply foot_ret|]. destruct (enc_time _); [|apply foot_ret].
        apply foot_bindR; [apply foot_decrypt_json|intros; apply foot_ret].
      - apply foot_bindR; [apply foot_get_user|intros u]. apply foot_bindR; [apply foot_get_groups|intros; apply foot_ret].
    Qed.
  End Any.

  Definition sa_writes (dt : N) : Prop := dt = SU \/ dt = SG.
  Notation fs := (foot v sa_writes (sa_key k) True).
  Lemma foot_put_user uid u b : fs (put_user io uc uid u b : prog W _).
  Proof.
    unfold put_user, user_seal. apply foot_bindR; [apply foot_bindR; [apply foot_encrypt_json; [exact Logic.I|now left]|intros [? ?]; apply foot_ret]|intros su].
    destruct b; apply foot_map_err; [apply (foot_update v _ _ _ F io Hio)|apply (foot_put v _ _ _ F io Hio)]; try reflexivity; try apply print_obj_nonempty; now left.
  Qed.
  Lemma foot_put_group gid g : fs (put_group io gc gid g : prog W _).
  Proof.
    unfold put_group, group_seal. apply foot_bindR; [apply foot_bindR; [apply foot_encrypt_json; [exact Logic.I|right; now left]|intros [? ?]; apply foot_ret]|intros sg].
    apply foot_map_err, (foot_put v _ _ _ F io Hio); try reflexivity; try apply print_obj_nonempty; now right.
  Qed.
  Lemma foot_new_v4 T K : foot v T K True (new_v4 e : prog W _).
  Proof. unfold new_v4. apply foot_bindR; [now apply foot_get_bytes|intros; apply foot_ret]. Qed.
  Lemma foot_sa c : fs (sa_aes e io k c : prog W _).
  Proof.
    pose proof (foot_identity sa_writes (sa_key k) True) as GI.
    pose proof (foot_get_user sa_writes (sa_key k) True) as GU.
    assert (GP : fs (generate_password e : prog W _)).
    { unfold generate_password. apply foot_bindR; [now apply foot_get_bytes|intros]. apply foot_bindR; [now apply foot_get_bytes|intros; apply foot_ret]. }
    unfold sa_aes. destruct c; cbn [sa_do]; apply foot_ret_map.
    - unfold sa_new_user, new_user. apply foot_bindR; [apply foot_new_v4|intros]. apply foot_bindR; [apply foot_bindR; [exact GP|intros [? ?]; apply foot_ret]|intros [? ?]].
      apply foot_bindR; [apply foot_put_user|intros; apply foot_ret].
    - unfold sa_login, any_err. apply foot_map_err, foot_bindR; [apply GU|intros]. apply foot_bindR; [apply foot_lift|intros].
      apply foot_bind; [unfold new_token; apply foot_bind; [apply foot_time|intros; apply foot_ret]|intros t].
      apply foot_bindR; [unfold token_seal; destruct (enc_time _); [|apply foot_ret]; apply foot_bindR; [apply foot_encrypt_json; [exact Logic.I|right; now right]|intros [? ?]; apply foot_ret]|intros].
      apply foot_bindR; [apply foot_lift|intros; apply foot_ret].
    - unfold sa_change_password, any_err, change_password. apply foot_bindR; [apply foot_map_err, GU|intros].
      apply foot_bindR; [apply foot_map_err; apply foot_bindR; [apply foot_lift|intros]; apply foot_bindR; [exact GP|intros [? ?]; apply foot_ret]|intros [? ?]].
      apply foot_bindR; [apply foot_put_user|intros; apply foot_ret].
    - unfold sa_add_user. apply foot_bindR; [apply GI|intros]. destruct (negb _); [apply foot_ret|]. apply foot_bindR; [apply GU|intros].
      apply foot_bindR; [apply foot_lift|intros]. apply foot_put_user.
    - unfold sa_remove_user. apply foot_bindR; [apply GI|intros]. destruct (negb _); [apply foot_ret|]. apply foot_bindR; [apply GU|intros]. apply foot_put_user.
    - unfold sa_delete_user. apply foot_bindR; [apply GI|intros]. apply (foot_delete v _ _ _ F io Hio); [reflexivity|now left].
    - unfold sa_new_group. apply foot_bindR; [apply GI|intros]. apply foot_bindR; [apply foot_new_v4|intros gid]. apply foot_bindR; [apply foot_put_group|intros _].
      apply foot_bindR; [apply GU|intros u]. apply foot_bindR; [apply foot_lift|intros gs].
      apply foot_bindR; [apply foot_put_user|intros _]. apply foot_ret.
    - apply GI.
  Qed.

  Lemma identity_reads : idp_reads v (sa_idp e io k : bytes -> prog W _).
  Proof.
    intros tok w m [H1 H2]. unfold sa_idp.
    assert (M : forall w', moved v (fun _ => False) (fun _ => False) False w w' -> holds v m w').
    { intros w' (A & B & _). split; [exact A|]. intros id dt. rewrite B by auto. apply H2. }
    eapply wpc_mono; [| |exact (foot_identity (fun _ => False) (fun _ => False) False tok w H1)]; auto.
  Qed.
End Sa.

(** ** D1 *)
Section D1.
  Context {S I : Type} (e : env) (F : Prop) (v : view S) (io : provider S) (Hio : io_spec F v io).
  Notation W := (world S I).
  Notation SO := DataTypeSealedObject.
  Notation SA := DataTypeSealedAccess.
  Definition d1_writes (dt : N) : Prop := dt = SO \/ dt = SA.
  Context (idp : bytes -> prog W (res identity)) (d : d1).
  Notation fd := (foot v d1_writes (d1_key d) True).
  Hypothesis Hidp : forall tok, fd (idp tok).
  Lemma foot_d1 c : fd (d1_aes e io idp d c).
  Proof.
    assert (KK : d1_key d (d_kek d)) by (unfold d1_key; auto). assert (KA : d1_key d (d_aek d)) by (unfold d1_key; auto).
    assert (KT : d1_key d (d_tek d)) by (unfold d1_key; auto).
    assert (HV : forall tok need, fd (verify_access idp tok need)).
    { intros. unfold verify_access. apply foot_bind; [apply Hidp|]. intros [i|x|]; try apply foot_ret. destruct (scope_contains _ _); apply foot_ret. }
    assert (HGA : forall oid, fd (get_sealed_access io oid : prog W _)).
    { intros. unfold get_sealed_access. apply foot_bindR; [apply foot_map_err, (foot_get v _ _ _ F io Hio); reflexivity|]. intros b. destruct (unmarshal _ _); apply foot_ret. }
    assert (HGO : forall oid, fd (get_sealed_object io oid : prog W _)).
    { intros. unfold get_sealed_object. apply foot_bindR; [apply foot_map_err, (foot_get v _ _ _ F io Hio); reflexivity|]. intros b. destruct (unmarshal _ _); apply foot_ret. }
    assert (HAZ : forall i need sa, fd (authorize_access (aes_cryptor e (d_aek d)) i need sa : prog W _)).
    { intros. unfold authorize_access, access_unseal. apply foot_bindR; [apply foot_decrypt_json|]. intros a. destruct (authorized _ _ _); apply foot_ret. }
    assert (HOS : forall o oid, fd (object_seal (aes_cryptor e (d_kek d)) o oid : prog W _)).
    { intros. unfold object_seal. apply foot_bindR; [apply foot_encrypt_json; auto|]. intros [wk ct]. apply foot_ret. }
    assert (HAS : forall a oid, fd (access_seal (aes_cryptor e (d_aek d)) a oid : prog W _)).
    { intros. unfold access_seal. apply foot_bindR; [apply foot_encrypt_json; auto|]. intros [wk ct]. apply foot_ret. }
    assert (HPO : forall so u, fd (put_sealed_object io so u : prog W _)).
    { intros; unfold put_sealed_object; destruct u; apply foot_map_err; [apply (foot_update v _ _ _ F io Hio)|apply (foot_put v _ _ _ F io Hio)]; try reflexivity; try apply print_obj_nonempty; now left. }
    assert (HPA : forall so u, fd (put_sealed_access io so u : prog W _)).
    { intros; unfold put_sealed_access; destruct u; apply foot_map_err; [apply (foot_update v _ _ _ F io Hio)|apply (foot_put v _ _ _ F io Hio)]; try reflexivity; try apply print_obj_nonempty; now right. }
    unfold d1_aes. destruct c; cbn [d1_do]; apply foot_ret_map.
    - unfold d1_encrypt. apply foot_bindR; [apply HV|intros i]. apply foot_bindR; [apply foot_new_v4|intros oid].
      apply foot_bindR; [apply HOS|intros [dek so]]. apply foot_bindR; [apply foot_lift|intros gs]. apply foot_bindR; [apply HAS|intros sa].
      apply foot_bindR; [apply HPO|intros _]. apply foot_bindR; [apply HPA|intros _]. apply foot_ret.
    - unfold d1_update. apply foot_bindR; [apply HV|intros i]. apply foot_bindR; [apply HGA|intros sa]. apply foot_bindR; [apply HAZ|intros a].
      apply foot_bindR; [apply HOS|intros [dek so]]. apply foot_bindR; [apply HAS|intros sa'].
      apply foot_bindR; [apply HPO|intros _]. apply foot_bindR; [apply HPA|intros _]. apply foot_ret.
    - unfold d1_decrypt. apply foot_bindR; [apply HV|intros i]. apply foot_bindR; [apply HGA|intros sa]. apply foot_bindR; [apply HAZ|intros a].
      apply foot_bindR; [apply HGO|intros so]. unfold object_unseal. apply foot_bindR; [apply foot_decrypt_json|intros; apply foot_ret].
    - unfold d1_delete. apply foot_bindR; [apply HV|intros i]. apply foot_bind; [apply HGA|intros [sa|x|]]; [|destruct x; apply foot_ret|apply foot_ret].
      apply foot_bindR; [apply HAZ|intros a].
      apply foot_bindR; [apply (foot_delete v _ _ _ F io Hio); [reflexivity|now left]|intros _].
      apply foot_bindR; [apply (foot_delete v _ _ _ F io Hio); [reflexivity|now right]|intros _]. apply foot_ret.
    - unfold d1_get_access_groups. apply foot_bindR; [apply HV|intros i]. apply foot_bindR; [apply HGA|intros sa]. apply foot_bindR; [apply HAZ|intros a]. apply foot_ret.
    - unfold d1_add_groups. apply foot_bindR; [apply HV|intros i]. apply foot_bindR; [apply HGA|intros sa]. apply foot_bindR; [apply HAZ|intros a].
      apply foot_bindR; [apply foot_lift|intros gs]. apply foot_bindR; [apply HAS|intros sa']. apply HPA.
    - unfold d1_remove_groups. apply foot_bindR; [apply HV|intros i]. apply foot_bindR; [apply HGA|intros sa]. apply foot_bindR; [apply HAZ|intros a].
      apply foot_bindR; [apply HAS|intros sa']. apply HPA.
    - unfold d1_authorize. apply foot_bindR; [apply HV|intros i]. apply foot_bindR; [apply HGA|intros sa]. apply foot_bindR; [apply HAZ|intros a]. apply foot_ret.
    - unfold d1_create_token, new_token, token_seal. apply foot_bind; [apply foot_bind; [apply foot_time|intros; apply foot_ret]|intros t].
      destruct (enc_time _); [|apply foot_ret]. apply foot_bindR; [apply foot_encrypt_json; auto|intros [wk ct]; apply foot_ret].
    - unfold d1_get_token_contents, token_unseal. apply foot_bindR; [|intros; apply foot_ret]. apply foot_bind; [apply foot_time|intros now].
      destruct (time_before _ _); [apply foot_ret|]. destruct (enc_time _); [|apply foot_ret]. apply foot_bindR; [apply foot_decrypt_json|intros; apply foot_ret].
  Qed.
End D1.

(** ** Index *)
Section Ix.
  Context {S I : Type} (e : env) (F : Prop) (v : view S) (io : provider S) (Hio : io_spec F v io).
  Notation W := (world S I).
  Notation SN := DataTypeSealedNode.
  Definition ix_writes (dt : N) : Prop := dt = SN.
  Context (idp : bytes -> prog W (res identity)) (iek : bytes) (fuel : nat) (K : bytes -> Prop).
  Notation fi := (foot v ix_writes K True).
  Hypothesis Hidp : forall tok, fi (idp tok).
  Lemma foot_get_next tk kek cur : fi (get_next_node e io tk kek cur : prog W _).
  Proof.
    unfold get_next_node. apply foot_bindR; [apply foot_lift|intros l]. apply foot_bindR; [|intros sn; apply foot_decrypt_json].
    unfold get_sealed_node. apply foot_bindR; [apply foot_map_err, (foot_get v _ _ _ F io Hio); reflexivity|intros b]. destruct (unmarshal _ b); apply foot_ret.
  Qed.
  Lemma foot_get_last tk kek n : forall cur, fi (get_last_node e io tk kek n cur : prog W _).
  Proof.
    induction n as [|n IH]; intros cur; [apply foot_ret|]. cbn [get_last_node]. apply foot_bind; [apply foot_get_next|].
    intros [nx|x|]; [apply IH|destruct x; apply foot_ret|apply foot_ret].
  Qed.
  Lemma foot_search tk kek n : forall cur found, fi (search_loop e io tk kek n cur found : prog W _).
  Proof.
    induction n as [|n IH]; intros cur found; [apply foot_ret|]. cbn [search_loop]. apply foot_bind; [apply foot_get_next|].
    intros [nx|x|]; [apply IH|destruct x; apply foot_ret|apply foot_ret].
  Qed.
  Lemma foot_seal kek n l : K kek -> fi (node_seal (aes_cryptor e kek) n l : prog W _).
  Proof. intros HK. unfold node_seal. apply foot_bindR; [apply foot_encrypt_json; auto|]. intros [wk ct]. apply foot_ret. Qed.
  Lemma foot_put_node l sn u : fi (put_sealed_node io l sn u : prog W _).
  Proof.
    unfold put_sealed_node. destruct u; apply foot_map_err; [apply (foot_update v _ _ _ F io Hio)|apply (foot_put v _ _ _ F io Hio)];
      try reflexivity; apply print_obj_nonempty.
  Qed.
  Lemma foot_delete_node tk kek l n : K kek -> fi (delete_node e io tk kek l n : prog W _).
  Proof.
    intros HK. unfold delete_node. apply foot_bind; [apply foot_get_next|].
    assert (HD : forall l, fi (delete_sealed_node io l : prog W _)) by (intros; apply (foot_delete v _ _ _ F io Hio); reflexivity).
    intros [nx|x|]; [|destruct x; first [apply HD|apply foot_ret]|apply foot_ret].
    apply foot_bindR; [now apply foot_seal|intros sn]. apply foot_bindR; [apply foot_put_node|intros _].
    apply foot_bindR; [apply foot_lift|intros l']. apply HD.
  Qed.
  Lemma foot_delete_loop tk kek n y : K kek -> forall cur, fi (delete_loop e io tk kek n cur y : prog W _).
  Proof.
    intros HK. induction n as [|n IH]; intros cur; [apply foot_ret|]. cbn [delete_loop]. apply foot_bind; [apply foot_get_next|].
    intros [nx|x|]; [|destruct x; apply foot_ret|apply foot_ret].
    destruct (bytes_eqb _ _); [|apply IH]. apply foot_bindR; [apply foot_lift|intros l].
    apply foot_bindR; [now apply foot_delete_node|intros _; apply IH].
  Qed.
  Lemma foot_ix c : (forall x, ix_key iek (ix_keyword c) = Ok x -> K x) -> fi (ix_do e io idp iek fuel c).
  Proof.
    assert (HV : forall tok, fi (ix_verify idp tok)).
    { intros. unfold ix_verify. apply foot_bind; [apply Hidp|]. intros [i|x|]; [|apply foot_ret..]. destruct (scope_contains _ _); apply foot_ret. }
    assert (HL : forall kw A (g : bytes * bytes -> prog W (res A)), (forall x, ix_key iek kw = Ok x -> K x) -> (forall tk kek, K kek -> fi (g (tk, kek))) ->
      fi (bindR (lift (ix_keys iek kw)) g)).
    { intros kw A g Hk Hg. unfold ix_key in Hk. unfold lift, bindR, bind. destruct (ix_keys iek kw) as [[tk kek]|x|]; [|apply foot_ret..].
      apply Hg, Hk. reflexivity. }
    intros Hk. destruct c as [tok kw y|tok kw|tok kw y]; cbn [ix_do ix_keyword] in *; apply foot_ret_map.
    - unfold ix_add. apply foot_bindR; [apply HV|intros _]. apply HL; [exact Hk|intros tk kek HK].
      apply foot_bindR; [apply foot_get_last|intros last]. apply foot_bindR; [apply foot_lift|intros l].
      apply foot_bindR; [now apply foot_seal|intros sn]. apply foot_put_node.
    - unfold ix_search. apply foot_bindR; [apply HV|intros _]. apply HL; [exact Hk|intros tk kek HK]. apply foot_search.
    - unfold ix_delete. apply foot_bindR; [apply HV|intros _]. apply HL; [exact Hk|intros tk kek HK]. now apply foot_delete_loop.
  Qed.
End Ix.
