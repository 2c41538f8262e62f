(** Overlapping object calls act one after the other unless they are at odds. *)
From Coq Require Import ZifyN ZifyNat.
From stdpp Require Import gmap.
From Verif Require Import Bytes Go Json JsonProofs Uuid UuidProofs Time Types TypesProofs World Logic
  Cryptor CryptorProofs Io IoSpec IoProofs Id Data D1 D1Proofs D1Calls Spec SpecProofs History D1Refine D1ConcSpec.
Local Open Scope bool_scope.
Local Open Scope N_scope.
Notation SO := DataTypeSealedObject.
Notation SA := DataTypeSealedAccess.
Notation content := (option (object * @gset bytes list.list_eq_dec list_countable)).

(** ** The providers *)
Lemma mem_cells : cell_storage mem_view Mem.
Proof.
  constructor.
  - intros id dt Hdt. cbn. intros s _. split; [exact Logic.I|]. split; [apply seq_refl|]. now rewrite (look_at mem_key s id dt Hdt).
  - intros id dt b Hdt Hb. split; [|intros x]; cbn; intros s _; rewrite (look_at mem_key s id dt Hdt); intros ->; (split; [exact Logic.I|]); left; (split; [apply seq_refl|]); cbn.
    + intros s2 _ _. split; [exact Logic.I|]. right. exists (Some b). split; [reflexivity|]. split; [|reflexivity]. apply (look_insert mem_key mem_key_inj); exact Hdt.
    + auto.
  - intros id dt b Hdt Hb. split; [|intros x]; cbn; intros s _; rewrite (look_at mem_key s id dt Hdt); intros ->; (split; [exact Logic.I|]); left; (split; [apply seq_refl|]); cbn.
    + auto.
    + intros s2 _ _. split; [exact Logic.I|]. right. exists (Some b). split; [reflexivity|]. split; [|reflexivity]. apply (look_insert mem_key mem_key_inj); exact Hdt.
  - intros id dt cur Hdt. cbn. intros s _ _. split; [exact Logic.I|]. right. exists None. split; [reflexivity|]. split; [|reflexivity].
    apply (look_delete mem_key mem_key_inj); exact Hdt.
Qed.
Lemma bolt_insert_inv (s : bolt) k b : b <> [] -> (forall k, s !! k <> Some []) -> forall k', <[k := b]> s !! k' <> Some [].
Proof. intros Hd H k'. destruct (decide (k = k')) as [->|Hne]; [rewrite lookup_insert; congruence|]. rewrite lookup_insert_ne by exact Hne. apply H. Qed.
Lemma bolt_cells : cell_storage bolt_view Bolt.
Proof.
  constructor.
  - intros id dt Hdt. cbn. intros s Hs. split; [exact Hs|]. split; [apply seq_refl|]. rewrite (look_at bolt_key s id dt Hdt).
    specialize (Hs (bolt_key id dt)). destruct (s !! bolt_key id dt) as [[|b l]|]; [congruence|reflexivity..].
  - intros id dt b Hdt Hb. split; [|intros x]; cbn; intros s Hs; rewrite (look_at bolt_key s id dt Hdt); intros ->; cbn.
    + split; [now apply bolt_insert_inv|]. right. exists (Some b). split; [reflexivity|]. split; [|reflexivity]. apply (look_insert bolt_key bolt_key_inj); exact Hdt.
    + split; [exact Hs|]. left. split; [apply seq_refl|auto].
  - intros id dt b Hdt Hb. split; [|intros x]; cbn; intros s Hs; rewrite (look_at bolt_key s id dt Hdt); intros ->; cbn.
    + split; [exact Hs|]. left. split; [apply seq_refl|auto].
    + split; [now apply bolt_insert_inv|]. right. exists (Some b). split; [reflexivity|]. split; [|reflexivity]. apply (look_insert bolt_key bolt_key_inj); exact Hdt.
  - intros id dt cur Hdt. cbn. intros s Hs _. split.
    + intros k. destruct (decide (bolt_key id dt = k)) as [->|Hne]; [rewrite lookup_delete; congruence|]. rewrite lookup_delete_ne by exact Hne. apply Hs.
    + right. exists None. split; [reflexivity|]. split; [|reflexivity]. apply (look_delete bolt_key bolt_key_inj); exact Hdt.
Qed.

Lemma nth_error_is_lookup {A} (l : list A) i : nth_error l i = l !! i.
Proof. revert i. induction l; intros [|i]; cbn; auto. Qed.

Section Conc.
  Context {S I : Type} (e : env) (v : view S) (io : provider S) (Hio : cell_storage v io).
  Notation W := (world S I).
  Context (idp : bytes -> prog W (res identity)) (who : bytes -> res identity -> Prop) (Hidp : forall tok, D1ConcSpec.answers v (idp tok) (who tok)) (d : d1).
  Context (n0 n1 : nat) (Hids : ids_differ e n0 n1).
  Notation keeps := (@D1ConcSpec.keeps S I v).
  Notation answers := (@D1ConcSpec.answers S I v _).
  Notation slot w := (v_map v (w_io w)).
  Notation oc := (aes_cryptor e (d_kek d)).
  Notation ac := (aes_cryptor e (d_aek d)).
  Notation tc := (aes_cryptor e (d_tek d)).

  (** ** Steps that leave objects alone *)
  Lemma keeps_refl w : v_inv v (w_io w) -> keeps w w.
  Proof. intros H. split; [exact H|]. split; [lia|]. auto. Qed.
  Lemma keeps_trans w1 w2 w3 : keeps w1 w2 -> keeps w2 w3 -> keeps w1 w3.
  Proof. intros (H1 & H2 & H3) (H4 & H5 & H6). split; [exact H4|]. split; [lia|]. intros oid dt Hd. rewrite H6, H3 by exact Hd. reflexivity. Qed.
  Lemma an_mono {B} (p : prog W B) (Q Q' : B -> Prop) : (forall b, Q b -> Q' b) -> answers p Q -> answers p Q'.
  Proof. intros HQ. induction p as [b|X f k IH]; cbn [answers]; [auto|]. intros H w Hw. destruct (H w Hw). auto. Qed.
  Lemma an_bind {B C} (p : prog W B) (k : B -> prog W C) Q : answers p (fun b => answers (k b) Q) -> answers (bind p k) Q.
  Proof. induction p as [b|X f c IH]; cbn [answers bind]; [auto|]. intros H w Hw. destruct (H w Hw). auto. Qed.
  Lemma an_bindR {B C} (p : prog W (res B)) (k : B -> prog W (res C)) Q :
    answers p (fun r => match r with Ok a => answers (k a) Q | Err x => Q (Err x) | Panic => Q Panic end) -> answers (bindR p k) Q.
  Proof. intros H. unfold bindR. apply an_bind. eapply an_mono; [|exact H]. intros [a|x|]; cbn [answers]; auto. Qed.
  Lemma an_act {B} (f : W -> B * W) (Q : B -> Prop) : (forall w, w_io (snd (f w)) = w_io w /\ (w_draws w <= w_draws (snd (f w)))%nat /\ Q (fst (f w))) -> answers (act f) Q.
  Proof. intros H w Hw. destruct (H w) as (E & L & HQ). split; [|exact HQ]. unfold D1ConcSpec.keeps. rewrite E. auto. Qed.
  Definition rng_dead : Prop := exists i n, draw e i n = Err ERandom.
  Lemma an_get_bytes n : answers (get_bytes e n) (fun r => (exists b, r = Ok b /\ length b = N.to_nat n) \/ (r = Err ERandom /\ rng_dead)).
  Proof.
    unfold get_bytes. apply an_act. intros w. split; [reflexivity|]. split; [cbn; lia|]. cbn [fst].
    destruct (draw_cases e (w_draws w) n) as [(b & E & L)|E]; rewrite E; [eauto|]. right. split; [reflexivity|]. eexists _, _. exact E.
  Qed.
  Lemma an_aes_enc kek pt aad : answers (aes_enc e kek pt aad) (fun r => (exists wk ct, r = Ok (wk, ct) /\ aes_open kek aad wk ct = Ok pt) \/ (r = Err ERandom /\ rng_dead)).
  Proof.
    unfold aes_enc. apply an_bindR. eapply an_mono; [|apply an_get_bytes]. intros r [(key & -> & Lk)|[-> HR]]; [|auto].
    apply an_bindR. eapply an_mono; [|apply an_get_bytes]. intros r [(nonce & -> & Ln)|[-> HR]]; [|auto].
    destruct (aes_seal_open kek pt aad key nonce Lk Ln) as (wk & ct & Hs & Ho & _). unfold aes_seal in Hs. unfold lift.
    destruct (Gcm.aes_gcm_encrypt pt aad key nonce) as [ct'| |] eqn:Ec; cbn [res_bind] in Hs; try discriminate.
    destruct (Kwp.aes_kwp_wrap kek key) as [wk'| |] eqn:Ew; cbn [res_bind] in Hs; try discriminate.
    injection Hs as -> ->. apply an_bindR. cbn [answers]. apply an_bindR. cbn [answers]. apply an_bind, an_act. intros w. split; [reflexivity|]. split; [cbn; lia|].
    cbn [answers]. left. eauto.
  Qed.
  Lemma an_decrypt_json {A} kek (dec : json -> option A) aad wk ct : answers (decrypt_json (aes_cryptor e kek) dec aad wk ct) (fun r => r = open_json kek dec aad wk ct).
  Proof.
    unfold decrypt_json, open_json. apply an_bindR. cbn [c_dec aes_cryptor]. unfold aes_dec. apply an_act. intros w.
    split; [destruct (_ && _); reflexivity|]. split; [destruct (_ && _); cbn; lia|]. cbn [fst]. destruct (aes_open _ _ _ _) as [pt|x|]; cbn [res_bind]; try reflexivity.
    destruct (unmarshal dec pt); reflexivity.
  Qed.
  Lemma an_object_seal o oid : uuid_wf oid -> answers (object_seal oc o oid)
    (fun r => (exists dek so, r = Ok (dek, so) /\ so_oid so = oid /\ obj_open (d_kek d) oid (print (enc_sealed_object so)) (Some dek) = Ok o) \/ (r = Err ERandom /\ rng_dead)).
  Proof.
    intros Hoid. unfold object_seal, encrypt_json. cbn [c_enc aes_cryptor]. apply an_bindR. eapply an_mono; [|apply an_aes_enc].
    intros r [(wk & ct & -> & Ho)|[-> HR]]; [|auto]. cbn [answers]. left. do 2 eexists. split; [reflexivity|]. split; [reflexivity|].
    unfold obj_open. rewrite sealed_object_roundtrip by exact Hoid. cbn [so_ad so_ct].
    unfold open_json. cbn [slice_bytes]. rewrite Ho. cbn [res_bind].
    rewrite unmarshal_print, dec_bytes_jbytes by apply jbytes_wf. cbn. now destruct o.
  Qed.
  Lemma an_access_seal a oid : uuid_wf oid -> answers (access_seal ac a oid)
    (fun r => (exists sa, r = Ok sa /\ sa_oid sa = oid /\ acc_open (d_aek d) oid (print (enc_sealed_access sa)) = Ok (mkAccess (norm_set (a_groups a)) (a_dek a))) \/ (r = Err ERandom /\ rng_dead)).
  Proof.
    intros Hoid. unfold access_seal, encrypt_json. cbn [c_enc aes_cryptor]. apply an_bindR. eapply an_mono; [|apply an_aes_enc].
    intros r [(wk & ct & -> & Ho)|[-> HR]]; [|auto]. cbn [answers]. left. eexists. split; [reflexivity|]. split; [reflexivity|].
    unfold acc_open. rewrite sealed_access_roundtrip by exact Hoid. cbn [sa_wk sa_ct].
    unfold open_json. cbn [slice_bytes]. rewrite Ho. cbn [res_bind]. now rewrite access_roundtrip.
  Qed.

  (** ** What is stored for an object *)
  Definition listed (oid : uuid) (ba : option bytes) (x : content) : Prop :=
    match x with
    | None => ba = None
    | Some (_, acl) => exists a dek, ba = Some a /\ acc_open (d_aek d) oid a = Ok (mkAccess (Some acl) (Some dek)) /\ (forall g, g ∈ acl -> valid_utf8 g = true)
    end.
  Definition clean (oid : uuid) (bo ba : option bytes) (x : content) : Prop :=
    match x with
    | None => bo = None /\ ba = None
    | Some (o, acl) => exists b a dek, bo = Some b /\ ba = Some a /\ acc_open (d_aek d) oid a = Ok (mkAccess (Some acl) (Some dek)) /\
        obj_open (d_kek d) oid b (Some dek) = Ok o /\ (forall g, g ∈ acl -> valid_utf8 g = true)
    end.
  Lemma clean_listed oid bo ba x : clean oid bo ba x -> listed oid ba x.
  Proof. destruct x as [[o acl]|]; cbn; [|tauto]. intros (b & a & dek & _ & H1 & H2 & _ & H3). eauto 10. Qed.

  (** An id that is not going to be drawn. *)
  Definition settled (w : W) (oid : uuid) : Prop := forall i b, (w_draws w <= i < n1)%nat -> draw e i 16 = Ok b -> uuid_v4 b <> oid.
  Lemma settled_mono w w' oid : (w_draws w <= w_draws w')%nat -> settled w oid -> settled w' oid.
  Proof. intros H Hs i b Hi. apply Hs. lia. Qed.
  Lemma drawn_settled w oid i b : (n0 <= i < w_draws w)%nat -> (w_draws w <= n1)%nat -> draw e i 16 = Ok b -> oid = uuid_v4 b -> settled w oid.
  Proof. intros Hi Hn Hb -> j b' Hj Hb'. intros E. eapply (Hids j i); [..|exact E]; eauto; lia. Qed.

  (** At every moment: access lists are as they should be, and nothing is stored under ids to come. *)
  Record Gl (w : W) (m : objects) : Prop := mkGl {
    gl_inv : v_inv v (w_io w);
    gl_n0 : (n0 <= w_draws w)%nat;
    gl_listed : forall oid, listed oid (slot w oid SA) (m !! oid);
    gl_new : forall i b, (w_draws w <= i < n1)%nat -> draw e i 16 = Ok b -> slot w (uuid_v4 b) SO = None /\ slot w (uuid_v4 b) SA = None }.
  Lemma gl_keeps w w' m : keeps w w' -> Gl w m -> Gl w' m.
  Proof.
    intros (H1 & H2 & H3) [G1 G2 G3 G4]. constructor; [exact H1|lia|..].
    - intros oid. rewrite H3 by auto. apply G3.
    - intros i b Hi Hb. rewrite !H3 by auto. apply (G4 i b); [lia|exact Hb].
  Qed.
  Lemma gl_absent w m i b : Gl w m -> (w_draws w <= i < n1)%nat -> draw e i 16 = Ok b -> m !! uuid_v4 b = None.
  Proof.
    intros G Hi Hb. pose proof (gl_listed _ _ G (uuid_v4 b)) as L. destruct (gl_new _ _ G i b Hi Hb) as [_ E].
    destruct (m !! uuid_v4 b) as [[o acl]|]; [|reflexivity]. destruct L as (a & dek & E' & _). congruence.
  Qed.

  (** ** What a call knows *)
  Inductive know :=
  | KFree
  | KMod (oid : uuid) (bo ba : option bytes) (x : content)
  | KAcl (oid : uuid) (bo ba : option bytes) (x : content)
  | KDec (oid : uuid)
  | KObj (oid : uuid) (bo : option bytes).
  Definition compat (k : know) (w : W) (m : objects) : Prop :=
    match k with
    | KFree => True
    | KMod oid bo ba x => slot w oid SO = bo /\ slot w oid SA = ba /\ m !! oid = x /\ settled w oid
    | KAcl oid bo ba x => slot w oid SO = bo /\ slot w oid SA = ba /\ m !! oid = x /\ settled w oid /\ clean oid bo ba x
    | KDec oid => clean oid (slot w oid SO) (slot w oid SA) (m !! oid) /\ settled w oid
    | KObj oid bo => slot w oid SO = bo /\ settled w oid
    end.
  Lemma compat_keeps k w w' m : keeps w w' -> compat k w m -> compat k w' m.
  Proof.
    intros (H1 & H2 & H3). destruct k; cbn; rewrite ?H3 by auto; intuition eauto using settled_mono.
  Qed.
  (** What a step may change. *)
  Definition framed (k : know) (w : W) (m : objects) (w' : W) (m' : objects) : Prop :=
    match k with
    | KMod oid _ _ _ => forall oid', oid' <> oid -> slot w' oid' SO = slot w oid' SO /\ slot w' oid' SA = slot w oid' SA /\ m' !! oid' = m !! oid'
    | KAcl oid _ _ _ => slot w' oid SO = slot w oid SO /\ forall oid', oid' <> oid -> slot w' oid' SO = slot w oid' SO /\ slot w' oid' SA = slot w oid' SA /\ m' !! oid' = m !! oid'
    | _ => m' = m /\ forall oid', slot w' oid' SO = slot w oid' SO /\ slot w' oid' SA = slot w oid' SA
    end.
  Lemma framed_keeps k w m w' : keeps w w' -> framed k w m w' m.
  Proof. intros (H1 & H2 & H3). destruct k; cbn; repeat split; intros; rewrite ?H3 by auto; auto. Qed.
  Definition follows (w : W) (k k' : know) (w' : W) : Prop :=
    match k, k' with
    | KFree, KFree => True
    | KFree, KMod oid _ _ _ => (w_draws w < w_draws w')%nat /\ exists b, draw e (w_draws w) 16 = Ok b /\ oid = uuid_v4 b
    | KMod o _ _ _, KMod o' _ _ _ | KAcl o _ _ _, KAcl o' _ _ _ | KDec o, KDec o' | KDec o, KObj o' _ | KObj o _, KObj o' _ => o = o'
    | _, _ => False
    end.
  Lemma follows_refl w k w' : follows w k k w'.
  Proof. destruct k; cbn; auto. Qed.

  (** ** One call among others *)
  Section Thread.
    Context (c : d1_call).
    Notation outcome := (option (res d1_reply)).
    (** The call acts in this step, or not. *)
    Definition acts (k' : know) (com : outcome) (m : objects) (com' : outcome) (m' : objects) (ev : option event) : Prop :=
      match ev with
      | None => com' = com /\ m' = m
      | Some ev => com = None /\ com' = Some (ev_reply ev) /\ ev_call ev = c /\ outside_ok e who c (ev_outside ev) /\
          spec_step (ev_outside ev) c m (ev_reply ev) m' /\
          (forall oid, ev_reply ev = Ok (ROid oid) -> exists bo ba x, k' = KMod oid bo ba x)
      end.
    Fixpoint lw {B} (p : prog W B) (Q : B -> know -> outcome -> Prop) (k : know) (com : outcome) : Prop :=
      match p with
      | Ret b => Q b k com
      | Step f q => forall w m, Gl w m -> compat k w m -> (w_draws (snd (f w)) <= n1)%nat ->
          exists k' com' m' ev, Gl (snd (f w)) m' /\ compat k' (snd (f w)) m' /\ framed k' w m (snd (f w)) m' /\ follows w k k' (snd (f w)) /\
            (w_draws w <= w_draws (snd (f w)))%nat /\ acts k' com m com' m' ev /\ lw (q (fst (f w))) Q k' com'
      end.
    Lemma lw_mono {B} (p : prog W B) (Q Q' : B -> know -> outcome -> Prop) k com : (forall b k com, Q b k com -> Q' b k com) -> lw p Q k com -> lw p Q' k com.
    Proof.
      intros HQ. revert k com. induction p as [b|X f q IH]; cbn [lw]; intros k com H; [auto|]. intros w m HG HC HB.
      destruct (H w m HG HC HB) as (k' & com' & m' & ev & H1 & H2 & H3 & H4 & H5 & H6 & H7). exists k', com', m', ev. auto 10.
    Qed.
    Lemma lw_bind {B C} (p : prog W B) (q : B -> prog W C) Q k com : lw p (fun b k com => lw (q b) Q k com) k com -> lw (bind p q) Q k com.
    Proof.
      revert k com. induction p as [b|X f q' IH]; cbn [lw bind]; intros k com H; [auto|]. intros w m HG HC HB.
      destruct (H w m HG HC HB) as (k' & com' & m' & ev & H1 & H2 & H3 & H4 & H5 & H6 & H7). exists k', com', m', ev. auto 10.
    Qed.
    Lemma lw_bindR {B C} (p : prog W (res B)) (q : B -> prog W (res C)) Q k com :
      lw p (fun r k com => match r with Ok a => lw (q a) Q k com | Err x => Q (Err x) k com | Panic => Q Panic k com end) k com -> lw (bindR p q) Q k com.
    Proof. intros H. unfold bindR. apply lw_bind. eapply lw_mono; [|exact H]. intros [a|x|] k' com'; cbn [lw]; auto. Qed.
    Lemma lw_map_err {B} h (p : prog W (res B)) (Q : res B -> know -> outcome -> Prop) k com :
      lw p (fun r k com => Q (match r with Ok a => Ok a | Err x => Err (h x) | Panic => Panic end) k com) k com -> lw (map_err h p) Q k com.
    Proof. intros H. unfold map_err. apply lw_bind. eapply lw_mono; [|exact H]. intros r k' com'; cbn [lw]; auto. Qed.
    Lemma lw_ret_map {A B} (h : A -> B) (p : prog W (res A)) (Q : res B -> know -> outcome -> Prop) k com :
      lw p (fun r k com => Q (res_map h r) k com) k com -> lw (ret_map h p) Q k com.
    Proof. intros H. unfold ret_map. apply lw_bind. eapply lw_mono; [|exact H]. intros r k' com' HQ. exact HQ. Qed.
    Lemma lw_answers {B} (p : prog W B) (P : B -> Prop) (Q : B -> know -> outcome -> Prop) k com : answers p P ->
      (forall b, P b -> Q b k com) -> lw p Q k com.
    Proof.
      induction p as [b|X f q IH]; cbn [lw answers]; intros H HQ; [auto|].
      intros w m HG HC _. destruct (H w (gl_inv _ _ HG)) as [H1 H2]. exists k, com, m, None.
      split; [eapply gl_keeps; eauto|]. split; [eapply compat_keeps; eauto|]. split; [now apply framed_keeps|]. split; [apply follows_refl|].
      split; [apply H1|]. split; [split; reflexivity|]. auto.
    Qed.
    (** Reading an entry. *)
    Lemma lw_get oid dt (Q : res bytes -> know -> outcome -> Prop) k com : dt < 65536 ->
      (forall w m, Gl w m -> compat k w m -> exists k' com' ev, compat k' w m /\ follows w k k' w /\ acts k' com m com' m ev /\
         Q (match slot w oid dt with Some b => Ok b | None => Err EIoNotFound end) k' com') ->
      lw (on_io (io_get io oid dt)) Q k com.
    Proof.
      intros Hdt H. pose proof (cell_get v io Hio oid dt Hdt) as HA.
      destruct (io_get io oid dt) as [r|X f q]; [destruct HA|]. cbn [on_io lw]. intros w m HG HC _.
      destruct (HA (w_io w) (gl_inv _ _ HG)) as (A1 & A2 & A3). destruct (f (w_io w)) as [x s'] eqn:Ef. cbn [fst snd] in *. rewrite A3. cbn [on_io lw].
      destruct (H w m HG HC) as (k' & com' & ev & B1 & B2 & B3 & B4).
      assert (HK : keeps w (set_io w s')) by (split; [exact A1|]; split; [cbn; lia|]; intros; cbn [w_io set_io]; apply A2).
      exists k', com', m, ev. split; [eapply gl_keeps; eauto|]. split; [eapply compat_keeps; eauto|]. split; [now apply framed_keeps|].
      split; [destruct k, k'; cbn in *; try tauto; lia|]. split; [apply HK|]. split; [exact B3|exact B4].
    Qed.
    (** Writing one. *)
    Lemma lw_write oid dt cur new r (p : prog S (res unit)) (Q : res unit -> know -> outcome -> Prop) k com :
      one_write v oid dt cur new r p -> (forall w m, Gl w m -> compat k w m -> slot w oid dt = cur) ->
      (new = None -> Q r k com) ->
      (forall y w m w', new = Some y -> Gl w m -> compat k w m -> v_inv v (w_io w') -> w_draws w' = w_draws w -> seq (slot w') (upd (slot w) oid dt y) ->
         exists k' com' m' ev, Gl w' m' /\ compat k' w' m' /\ framed k' w m w' m' /\ follows w k k' w' /\ acts k' com m com' m' ev /\ Q r k' com') ->
      lw (on_io p) Q k com.
    Proof.
      intros Hw Hcur HN HY. induction p as [b|X f q IH]; cbn [one_write on_io lw] in *.
      - destruct Hw as [-> ->]. auto.
      - intros w m HG HC _. destruct (Hw (w_io w) (gl_inv _ _ HG) (Hcur w m HG HC)) as [A1 A2].
        destruct (f (w_io w)) as [x s'] eqn:Ef. cbn [fst snd] in *. destruct A2 as [[A2 A3]|(y & Ey & A2 & A3)].
        + assert (HK : keeps w (set_io w s')) by (split; [exact A1|]; split; [cbn; lia|]; intros; cbn [w_io set_io]; apply A2).
          exists k, com, m, None. split; [eapply gl_keeps; eauto|]. split; [eapply compat_keeps; eauto|]. split; [now apply framed_keeps|].
          split; [apply follows_refl|]. split; [apply HK|]. split; [split; reflexivity|]. now apply IH.
        + rewrite A3. cbn [on_io lw]. destruct (HY y w m (set_io w s') Ey HG HC A1 eq_refl A2) as (k' & com' & m' & ev & B1 & B2 & B3 & B4 & B5 & B6).
          exists k', com', m', ev. split; [exact B1|]. split; [exact B2|]. split; [exact B3|]. split; [exact B4|]. split; [cbn; lia|]. auto.
    Qed.
    Lemma upd_slots (w w' : W) oid dt y : seq (slot w') (upd (slot w) oid dt y) ->
      slot w' oid dt = y /\ forall oid' dt', (oid', dt') <> (oid, dt) -> slot w' oid' dt' = slot w oid' dt'.
    Proof. intros H. split; [rewrite H; apply upd_same|]. intros oid' dt' Hne. rewrite H. now apply upd_other. Qed.
    Lemma gl_write w m w' (oid : uuid) dt y m' : Gl w m -> settled w oid -> v_inv v (w_io w') -> w_draws w' = w_draws w -> seq (slot w') (upd (slot w) oid dt y) ->
      (forall oid', oid' <> oid -> m' !! oid' = m !! oid') -> listed oid (slot w' oid SA) (m' !! oid) -> Gl w' m'.
    Proof.
      intros [G1 G2 G3 G4] Hs Hi Hd Hq Hm Hl. destruct (upd_slots _ _ _ _ _ Hq) as [U1 U2]. constructor; [exact Hi|lia|..].
      - intros oid'. destruct (decide (oid' = oid)) as [->|Hne]; [exact Hl|]. rewrite Hm by exact Hne. rewrite U2 by congruence. apply G3.
      - intros i b Hi' Hb. rewrite Hd in Hi'. pose proof (Hs i b Hi' Hb) as Hne. rewrite !U2 by congruence. apply (G4 i b); assumption.
    Qed.
    (** The only call that changes the object writes the object's entry. *)
    Lemma lw_mod_object (oid : uuid) bo ba x new r (p : prog S (res unit)) (Q : res unit -> know -> outcome -> Prop) com :
      one_write v oid SO bo new r p ->
      Q r (KMod oid (match new with None => bo | Some y => y end) ba x) com -> lw (on_io p) Q (KMod oid bo ba x) com.
    Proof.
      intros Hw HQ. eapply lw_write; [exact Hw|intros w m _ (E & _); exact E|intros ->; exact HQ|].
      intros y w m w' -> HG (C1 & C2 & C3 & C4) Hi Hd Hq. destruct (upd_slots _ _ _ _ _ Hq) as [U1 U2].
      assert (U3 : slot w' oid SA = slot w oid SA) by (apply U2; intros [=]).
      exists (KMod oid y ba x), com, m, None. split; [|split; [|split; [|split; [|split]]]].
      - eapply gl_write; eauto. rewrite U3. apply (gl_listed _ _ HG).
      - cbn. split; [exact U1|]. split; [congruence|]. split; [exact C3|]. eapply settled_mono; [|exact C4]. lia.
      - cbn. intros oid' Hne. rewrite !U2 by congruence. auto.
      - reflexivity.
      - split; reflexivity.
      - exact HQ.
    Qed.
    (** It writes the access entry, and that is when it acts. *)
    Lemma lw_mod_access (oid : uuid) bo ba x y x' r (p : prog S (res unit)) ev (Q : res unit -> know -> outcome -> Prop) :
      one_write v oid SA ba (Some y) r p -> clean oid bo y x' ->
      (forall w m, Gl w m -> m !! oid = x -> ev_call ev = c /\ outside_ok e who c (ev_outside ev) /\
         spec_step (ev_outside ev) c m (ev_reply ev) (partial_alter (fun _ => x') oid m)) ->
      (forall o, ev_reply ev = Ok (ROid o) -> o = oid) ->
      Q r (KMod oid bo y x') (Some (ev_reply ev)) -> lw (on_io p) Q (KMod oid bo ba x) None.
    Proof.
      intros Hw Hcl Hev Hro HQ. eapply lw_write; [exact Hw|intros w m _ (_ & E & _); exact E|discriminate|].
      intros y' w m w' [= <-] HG (C1 & C2 & C3 & C4) Hi Hd Hq. destruct (upd_slots _ _ _ _ _ Hq) as [U1 U2].
      assert (U3 : slot w' oid SO = slot w oid SO) by (apply U2; intros [=]).
      assert (HM : forall oid', oid' <> oid -> partial_alter (fun _ => x') oid m !! oid' = m !! oid') by (intros; apply lookup_partial_alter_ne; congruence).
      exists (KMod oid bo y x'), (Some (ev_reply ev)), (partial_alter (fun _ => x') oid m), (Some ev). split; [|split; [|split; [|split; [|split]]]].
      - eapply gl_write; eauto. rewrite U1, lookup_partial_alter. eapply clean_listed; exact Hcl.
      - cbn. split; [congruence|]. split; [exact U1|]. split; [apply lookup_partial_alter|]. eapply settled_mono; [|exact C4]. lia.
      - cbn. intros oid' Hne. rewrite !U2 by congruence. auto.
      - reflexivity.
      - destruct (Hev w m HG C3) as (V1 & V2 & V3). cbn [acts]. split; [reflexivity|]; split; [reflexivity|]; split; [exact V1|]; split; [exact V2|]; split; [exact V3|]. intros o Ho. rewrite (Hro o Ho). eauto.
      - exact HQ.
    Qed.
    Lemma lw_acl_access (oid : uuid) bo ba x y x' r (p : prog S (res unit)) ev (Q : res unit -> know -> outcome -> Prop) :
      one_write v oid SA ba (Some y) r p -> clean oid bo y x' ->
      (forall w m, Gl w m -> m !! oid = x -> ev_call ev = c /\ outside_ok e who c (ev_outside ev) /\
         spec_step (ev_outside ev) c m (ev_reply ev) (partial_alter (fun _ => x') oid m)) ->
      (forall o, ev_reply ev <> Ok (ROid o)) ->
      Q r (KAcl oid bo y x') (Some (ev_reply ev)) -> lw (on_io p) Q (KAcl oid bo ba x) None.
    Proof.
      intros Hw Hcl Hev Hro HQ. eapply lw_write; [exact Hw|intros w m _ (_ & E & _); exact E|discriminate|].
      intros y' w m w' [= <-] HG (C1 & C2 & C3 & C4 & C5) Hi Hd Hq. destruct (upd_slots _ _ _ _ _ Hq) as [U1 U2].
      assert (U3 : slot w' oid SO = slot w oid SO) by (apply U2; intros [=]).
      assert (HM : forall oid', oid' <> oid -> partial_alter (fun _ => x') oid m !! oid' = m !! oid') by (intros; apply lookup_partial_alter_ne; congruence).
      exists (KAcl oid bo y x'), (Some (ev_reply ev)), (partial_alter (fun _ => x') oid m), (Some ev). split; [|split; [|split; [|split; [|split]]]].
      - eapply gl_write; eauto. rewrite U1, lookup_partial_alter. eapply clean_listed; exact Hcl.
      - cbn. split; [congruence|]. split; [exact U1|]. split; [apply lookup_partial_alter|]. split; [|exact Hcl]. eapply settled_mono; [|exact C4]. lia.
      - cbn. split; [exact U3|]. intros oid' Hne. rewrite !U2 by congruence. auto.
      - reflexivity.
      - destruct (Hev w m HG C3) as (V1 & V2 & V3). cbn [acts]. split; [reflexivity|]; split; [reflexivity|]; split; [exact V1|]; split; [exact V2|]; split; [exact V3|]. intros o Ho. destruct (Hro o Ho).
      - exact HQ.
    Qed.

    (** ** How a call ends *)
    Definition tidy (k : know) : Prop := match k with KMod oid bo ba x => clean oid bo ba x | _ => True end.
    (** The call may act now, without changing anything. *)
    Definition may_act (k : know) (r : res d1_reply) : Prop :=
      (forall oid, r <> Ok (ROid oid)) /\
      forall w m, Gl w m -> compat k w m -> exists x, outside_ok e who c x /\ spec_step x c m r m.
    Definition post (r : res d1_reply) (k : know) (com : outcome) : Prop :=
      tidy k /\ (com = Some r \/ (com = None /\ may_act k r)).

    Definition turned_away {A} (wi : res identity) (need : N) (r : res A) : Prop :=
      match r with
      | Ok _ => False
      | Err x => (x = ED1NotAuthenticated /\ exists y, wi = Err y) \/ (x = ED1NotAuthorized /\ exists i, wi = Ok i /\ ~ scope_has (i_scopes i) need)
      | Panic => wi = Panic
      end.
    Lemma turned_map {A B} (h : A -> B) wi need r : turned_away wi need r -> turned_away wi need (res_map h r).
    Proof. destruct r; cbn; tauto. Qed.
    Lemma turned_spec wi need (r : res d1_reply) m body : turned_away wi need r -> with_scope need wi m r m body.
    Proof.
      unfold with_scope, refuse. destruct r as [y|x|]; cbn; [tauto| |intros ->; auto].
      intros [[-> [y ->]]|[-> (i & -> & Hn)]]; auto.
    Qed.
    Lemma turned_noid wi need (r : res d1_reply) : turned_away wi need r -> forall oid, r <> Ok (ROid oid).
    Proof. intros H oid ->. exact H. Qed.
    Lemma lw_start {B} tok need (q : identity -> prog W (res B)) (Q : res B -> know -> outcome -> Prop) k com :
      (forall i, who tok (Ok i) -> scope_has (i_scopes i) need -> lw (q i) Q k com) ->
      (forall wi r, who tok wi -> turned_away wi need r -> Q r k com) -> lw (bindR (verify_access idp tok need) q) Q k com.
    Proof.
      intros H1 H2. apply lw_bindR. unfold verify_access. apply lw_bind. eapply lw_answers; [apply Hidp|]. intros wi Hw.
      destruct wi as [i|x|]; [|cbn [lw]; eapply H2; [exact Hw|]; cbn; eauto..].
      destruct (scope_contains (i_scopes i) need) eqn:Es; cbn [lw].
      - apply H1; [exact Hw|]. now apply scope_contains_has.
      - eapply H2; [exact Hw|]. apply scope_contains_hasnt in Es. cbn. eauto.
    Qed.

    (** Reading the access list. *)
    Lemma lw_get_acc (oid : uuid) (Q : res sealed_access -> know -> outcome -> Prop) k com :
      (forall w m, Gl w m -> compat k w m -> exists k' com' ev, compat k' w m /\ follows w k k' w /\ acts k' com m com' m ev /\
         match m !! oid with
         | None => Q (Err ED1AccessNotFound) k' com'
         | Some (o, acl) => forall sa a dek, slot w oid SA = Some a -> acc_open (d_aek d) oid a = Ok (mkAccess (Some acl) (Some dek)) ->
             sa_oid sa = oid -> open_json (d_aek d) dec_access (access_aad oid) (sa_wk sa) (sa_ct sa) = Ok (mkAccess (Some acl) (Some dek)) ->
             (forall g, g ∈ acl -> valid_utf8 g = true) -> Q (Ok sa) k' com'
         end) ->
      lw (get_sealed_access io oid) Q k com.
    Proof.
      intros H. unfold get_sealed_access. apply lw_bindR, lw_map_err, lw_get; [reflexivity|]. intros w m HG HC.
      destruct (H w m HG HC) as (k' & com' & ev & B1 & B2 & B3 & B4). exists k', com', ev. split; [exact B1|]. split; [exact B2|]. split; [exact B3|].
      pose proof (gl_listed _ _ HG oid) as L. destruct (m !! oid) as [[o acl]|] eqn:Em; cbn [listed] in L; [|rewrite L; exact B4].
      destruct L as (a & dek & Ea & Ho & V). rewrite Ea. pose proof Ho as Ho'. unfold acc_open in Ho'. destruct (unmarshal dec_sealed_access a) as [sa|]; [|discriminate].
      cbn [lw]. eapply B4; eauto.
    Qed.
    Lemma lw_authorize i need sa (Q : res access -> know -> outcome -> Prop) k com a :
      open_json (d_aek d) dec_access (access_aad (sa_oid sa)) (sa_wk sa) (sa_ct sa) = Ok a ->
      (if authorized i need a then Q (Ok a) k com else Q (Err ED1NotAuthorized) k com) -> lw (authorize_access ac i need sa) Q k com.
    Proof.
      intros Ho HQ. unfold authorize_access, access_unseal. apply lw_bindR. eapply lw_answers; [apply an_decrypt_json|]. intros r ->. rewrite Ho.
      destruct (authorized i need a); exact HQ.
    Qed.
    Lemma lw_load {B} i need (oid : uuid) (q : access -> prog W (res B)) (Q : res B -> know -> outcome -> Prop) k com : scope_has (i_scopes i) need ->
      (forall w m, Gl w m -> compat k w m -> exists k' com' ev, compat k' w m /\ follows w k k' w /\ acts k' com m com' m ev /\
         match m !! oid with
         | None => Q (Err ED1AccessNotFound) k' com'
         | Some (o, acl) => (~ on_list i need acl -> Q (Err ED1NotAuthorized) k' com') /\
            (forall a dek, on_list i need acl -> slot w oid SA = Some a -> acc_open (d_aek d) oid a = Ok (mkAccess (Some acl) (Some dek)) ->
              (forall g, g ∈ acl -> valid_utf8 g = true) -> lw (q (mkAccess (Some acl) (Some dek))) Q k' com')
         end) ->
      lw (bindR (get_sealed_access io oid) (fun sa => bindR (authorize_access ac i need sa) q)) Q k com.
    Proof.
      intros Hs H. apply lw_bindR, lw_get_acc. intros w m HG HC.
      destruct (H w m HG HC) as (k' & com' & ev & B1 & B2 & B3 & B4). exists k', com', ev. split; [exact B1|]. split; [exact B2|]. split; [exact B3|].
      destruct (m !! oid) as [[o acl]|]; [|exact B4]. intros sa a dek Ea Ho Es Hj V. apply lw_bindR. eapply lw_authorize; [rewrite Es; exact Hj|].
      pose proof (authorized_on_list i need acl (Some dek) Hs) as HA. destruct (authorized i need _); [apply (proj2 B4 a dek); tauto|apply B4].
      intros Hl. apply HA in Hl. discriminate.
    Qed.

    Definition seen (wi : res identity) : outside := mkOutside wi rng_dead (Err ERandom).
    Lemma seen_ok tok wi : call_token c = Some tok -> who tok wi -> outside_ok e who c (seen wi).
    Proof. intros Et Hw. split; [|split]; cbn; [|auto|discriminate]. intros tok' E. congruence. Qed.
    Lemma turned_may tok wi need r k : call_token c = Some tok -> who tok wi -> turned_away wi need r ->
      (forall m, with_scope need wi m r m (fun _ => False) -> spec_step (seen wi) c m r m) -> may_act k r.
    Proof.
      intros Et Hw Ht H. split; [eapply turned_noid; exact Ht|]. intros w m _ _. exists (seen wi). split; [eapply seen_ok; eauto|].
      apply H. now apply turned_spec.
    Qed.
    Lemma scope_weaken need wi m (r : res d1_reply) m' (P P' : identity -> Prop) : (forall i, P i -> P' i) -> with_scope need wi m r m' P -> with_scope need wi m r m' P'.
    Proof. unfold with_scope. intros H. destruct wi; [|auto..]. intros [?|[? ?]]; auto. Qed.

    (** Calls that only look at the access list act when they read it. *)
    Lemma lw_list_reader (B : Type) (tok : bytes) (need : N) (oid : uuid) (g : gset bytes -> B) (h : B -> d1_reply) (q : access -> B) : call_token c = Some tok ->
      (forall acl dek, q (mkAccess (Some acl) (Some dek)) = g acl) -> (forall b o, h b <> ROid o) ->
      (forall wi m r, with_access need wi oid m r m (fun _ acl => r = Ok (h (g acl))) -> spec_step (seen wi) c m r m) ->
      lw (bindR (verify_access idp tok need) (fun i => bindR (get_sealed_access io oid) (fun sa => bindR (authorize_access ac i need sa) (fun a => Ret (Ok (q a))))))
        (fun r k com => post (res_map h r) k com) KFree None.
    Proof.
      intros Et Hq Hh Hspec. apply lw_start.
      2:{ intros wi r Hw Ht. split; [exact Logic.I|]. right. split; [reflexivity|]. eapply turned_may; [exact Et|exact Hw|eapply turned_map; exact Ht|].
          intros m Hm. apply Hspec. unfold with_access. eapply scope_weaken; [|exact Hm]. intros i0 []. }
      intros i Hw Hs. eapply lw_load; [exact Hs|]. intros w m HG _.
      assert (HE : forall r, with_access need (Ok i) oid m r m (fun _ acl => r = Ok (h (g acl))) -> (forall o, r <> Ok (ROid o)) ->
        acts KFree None m (Some r) m (Some (mkEvent (seen (Ok i)) c r))).
      { intros r Hr Hn. split; [reflexivity|]. split; [reflexivity|]. split; [reflexivity|]. split; [eapply seen_ok; eauto|]. split; [apply Hspec, Hr|].
        intros o Ho. destruct (Hn o Ho). }
      destruct (m !! oid) as [[o acl]|] eqn:Em.
      - destruct (authorized i need (mkAccess (Some acl) None)) eqn:Ea.
        + assert (Hl : on_list i need acl) by now apply (authorized_on_list i need acl None Hs).
          exists KFree, (Some (Ok (h (g acl)))), (Some (mkEvent (seen (Ok i)) c (Ok (h (g acl))))). split; [exact Logic.I|]. split; [exact Logic.I|]. split.
          { apply HE; [|intros o' [= E]; destruct (Hh _ _ E)]. unfold with_access, with_scope. right. split; [exact Hs|]. rewrite Em. auto. }
          split; [tauto|]. intros a dek _ _ _ _. cbn [lw]. split; [exact Logic.I|]. rewrite Hq. now left.
        + assert (Hl : ~ on_list i need acl).
          { intros Hl. apply (authorized_on_list i need acl None Hs) in Hl. congruence. }
          exists KFree, (Some (Err ED1NotAuthorized)), (Some (mkEvent (seen (Ok i)) c (Err ED1NotAuthorized))). split; [exact Logic.I|]. split; [exact Logic.I|]. split.
          { apply HE; [|discriminate]. unfold with_access, with_scope, refuse. right. split; [exact Hs|]. rewrite Em. auto. }
          split; [|tauto]. intros _. split; [exact Logic.I|]. now left.
      - exists KFree, (Some (Err ED1AccessNotFound)), (Some (mkEvent (seen (Ok i)) c (Err ED1AccessNotFound))). split; [exact Logic.I|]. split; [exact Logic.I|]. split.
        { apply HE; [|discriminate]. unfold with_access, with_scope, refuse. right. split; [exact Hs|]. rewrite Em. auto. }
        split; [exact Logic.I|]. now left.
    Qed.

    (** Decrypt acts when it reads the access list; the object it then reads is the same as at that time. *)
    Lemma lw_decrypt tok oid : c = CDecrypt tok oid -> lw (d1_aes e io idp d c) post (KDec oid) None.
    Proof.
      intros Ec. assert (Et : call_token c = Some tok) by now rewrite Ec.
      assert (Hspec : forall wi m r, with_access ScopeDecrypt wi oid m r m (fun o _ => r = Ok (RObject o)) -> spec_step (seen wi) c m r m).
      { intros wi m r H. rewrite Ec. cbn [spec_step seen o_who]. unfold with_access in *. eapply scope_weaken; [|exact H]. intros i Hi. cbn beta in *.
        destruct (m !! oid) as [[o acl]|]; [|exact Hi]. destruct Hi as [?|[? ?]]; auto. }
      replace (d1_aes e io idp d c) with (d1_aes e io idp d (CDecrypt tok oid)) by now rewrite Ec. unfold d1_aes. cbn [d1_do]. apply lw_ret_map. unfold d1_decrypt.
      apply lw_start.
      { intros i Hw Hs. eapply lw_load; [exact Hs|]. intros w m HG [HC Hst].
        assert (HE : forall k r, with_access ScopeDecrypt (Ok i) oid m r m (fun o _ => r = Ok (RObject o)) -> (forall o, r <> Ok (ROid o)) ->
          acts k None m (Some r) m (Some (mkEvent (seen (Ok i)) c r))).
        { intros k r Hr Hn. split; [reflexivity|]. split; [reflexivity|]. split; [reflexivity|]. split; [eapply seen_ok; eauto|]. split; [apply Hspec, Hr|].
          intros o Ho. destruct (Hn o Ho). }
        destruct (m !! oid) as [[o acl]|] eqn:Em.
        - cbn [clean] in HC. destruct HC as (b & a & dek & E1 & E2 & E3 & E4 & V). destruct (authorized i ScopeDecrypt (mkAccess (Some acl) None)) eqn:Ea.
          + assert (Hl : on_list i ScopeDecrypt acl) by now apply (authorized_on_list i ScopeDecrypt acl None Hs).
            exists (KObj oid (Some b)), (Some (Ok (RObject o))), (Some (mkEvent (seen (Ok i)) c (Ok (RObject o)))). split; [split; [exact E1|exact Hst]|]. split; [reflexivity|]. split.
            { apply HE; [|discriminate]. unfold with_access, with_scope. right. split; [exact Hs|]. rewrite Em. auto. }
            split; [tauto|]. intros a' dek' _ Ea' Eo _. rewrite E2 in Ea'. injection Ea' as <-. rewrite E3 in Eo. injection Eo as <-.
            apply lw_bindR. unfold get_sealed_object. apply lw_bindR, lw_map_err, lw_get; [reflexivity|]. intros w2 m2 HG2 [HC2 Hst2].
            exists (KObj oid (Some b)), (Some (Ok (RObject o))), None. split; [split; assumption|]. split; [reflexivity|]. split; [split; reflexivity|].
            rewrite HC2. unfold obj_open in E4. destruct (unmarshal dec_sealed_object b) as [so|]; [|discriminate]. cbn [lw a_dek].
            unfold object_unseal. apply lw_bindR. eapply lw_answers; [apply an_decrypt_json|]. intros r ->. cbn [so_oid so_ad so_ct].
            destruct (open_json _ _ _ _ _) as [pt|x|]; cbn [res_map res_bind] in E4; try discriminate. injection E4 as <-. cbn [lw]. split; [exact Logic.I|]. now left.
          + assert (Hl : ~ on_list i ScopeDecrypt acl).
            { intros Hl. apply (authorized_on_list i ScopeDecrypt acl None Hs) in Hl. congruence. }
            exists (KDec oid), (Some (Err ED1NotAuthorized)), (Some (mkEvent (seen (Ok i)) c (Err ED1NotAuthorized))). split.
            { split; [|exact Hst]. rewrite Em. cbn [clean]. exists b, a, dek. auto. } split; [reflexivity|]. split.
            { apply HE; [|discriminate]. unfold with_access, with_scope, refuse. right. split; [exact Hs|]. rewrite Em. auto. }
            split; [|tauto]. intros _. split; [exact Logic.I|]. now left.
        - exists (KDec oid), (Some (Err ED1AccessNotFound)), (Some (mkEvent (seen (Ok i)) c (Err ED1AccessNotFound))). split.
          { split; [|exact Hst]. rewrite Em. exact HC. } split; [reflexivity|]. split.
          { apply HE; [|discriminate]. unfold with_access, with_scope, refuse. right. split; [exact Hs|]. rewrite Em. auto. }
          split; [exact Logic.I|]. now left. }
      intros wi r Hw Ht. split; [exact Logic.I|]. right. split; [reflexivity|]. eapply turned_may; [exact Et|exact Hw|eapply turned_map; exact Ht|].
      intros m Hm. apply Hspec. unfold with_access. eapply scope_weaken; [|exact Hm]. intros i0 [].
    Qed.

    (** Calls that change an object: nobody else does meanwhile. *)
    Lemma lw_changer {B} tok (need : N) (oid : uuid) (q : identity -> access -> prog W (res B)) (h : B -> d1_reply) k (ba : option bytes) (x : content) :
      call_token c = Some tok -> tidy k -> (forall b o, h b <> ROid o) ->
      (forall w m, compat k w m -> slot w oid SA = ba /\ m !! oid = x) ->
      (forall wi m r, with_access need wi oid m r m (fun _ _ => False) -> spec_step (seen wi) c m r m) ->
      (forall i o acl a dek, x = Some (o, acl) -> who tok (Ok i) -> scope_has (i_scopes i) need -> on_list i need acl -> ba = Some a ->
         acc_open (d_aek d) oid a = Ok (mkAccess (Some acl) (Some dek)) -> (forall g, g ∈ acl -> valid_utf8 g = true) ->
         lw (q i (mkAccess (Some acl) (Some dek))) (fun r k com => post (res_map h r) k com) k None) ->
      lw (bindR (verify_access idp tok need) (fun i => bindR (get_sealed_access io oid) (fun sa => bindR (authorize_access ac i need sa) (q i))))
        (fun r k com => post (res_map h r) k com) k None.
    Proof.
      intros Et Htidy Hh Hk Hspec Hq. apply lw_start.
      2:{ intros wi r Hw Ht. split; [exact Htidy|]. right. split; [reflexivity|]. eapply turned_may; [exact Et|exact Hw|eapply turned_map; exact Ht|].
          intros m Hm. apply Hspec. unfold with_access. eapply scope_weaken; [|exact Hm]. intros i0 []. }
      intros i Hw Hs. eapply lw_load; [exact Hs|]. intros w m HG HC. exists k, None, None. split; [exact HC|]. split; [apply follows_refl|].
      split; [split; reflexivity|]. destruct (Hk w m HC) as [E1 E2]. rewrite E2.
      assert (HM : forall x', (forall m, m !! oid = x -> with_access need (Ok i) oid m (Err x') m (fun _ _ => False)) -> post (Err x') k None).
      { intros x' H. split; [exact Htidy|]. right. split; [reflexivity|]. split; [discriminate|]. intros w' m' _ HC'. exists (seen (Ok i)).
        split; [eapply seen_ok; eauto|]. apply Hspec, H. apply (Hk w' m' HC'). }
      destruct x as [[o acl]|].
      - split.
        + intros Hl. apply HM. intros m' Em. unfold with_access, with_scope, refuse. right. split; [exact Hs|]. rewrite Em. auto.
        + intros a dek Hl Ea Ho V. eapply Hq; eauto. congruence.
      - apply HM. intros m' Em. unfold with_access, with_scope, refuse. right. split; [exact Hs|]. rewrite Em. auto.
    Qed.
    Lemma post_random tok i need oid (k : know) (x : content) o acl : call_token c = Some tok -> who tok (Ok i) -> scope_has (i_scopes i) need -> on_list i need acl -> x = Some (o, acl) -> tidy k -> rng_dead ->
      (forall w m, compat k w m -> m !! oid = x) ->
      (forall m, with_access need (Ok i) oid m (Err ERandom) m (fun _ _ => rng_dead /\ refuse ERandom m (Err ERandom : res d1_reply) m) -> spec_step (seen (Ok i)) c m (Err ERandom) m) -> post (Err ERandom) k None.
    Proof.
      intros Et Hw Hs Hl -> Ht HR Hk Hspec. split; [exact Ht|]. right. split; [reflexivity|]. split; [discriminate|]. intros w m _ HC.
      exists (seen (Ok i)). split; [eapply seen_ok; eauto|]. apply Hspec. unfold with_access, with_scope, refuse. right. split; [exact Hs|]. rewrite (Hk w m HC). auto.
    Qed.
    Lemma access_weaken (need : N) (wi : res identity) (oid : uuid) (m : objects) (r : res d1_reply) (m' : objects) (P P' : object -> gset bytes -> Prop) :
      (forall o acl, P o acl -> P' o acl) -> with_access need wi oid m r m' P -> with_access need wi oid m r m' P'.
    Proof.
      intros H. unfold with_access. apply scope_weaken. intros i. destruct (m !! oid) as [[o acl]|]; [|auto]. intros [?|[? ?]]; auto.
    Qed.

    Lemma lw_update tok oid obj bo ba x : c = CUpdate tok oid obj -> uuid_wf oid -> clean oid bo ba x -> lw (d1_aes e io idp d c) post (KMod oid bo ba x) None.
    Proof.
      intros Ec Hoid Hcl. assert (Et : call_token c = Some tok) by now rewrite Ec.
      replace (d1_aes e io idp d c) with (d1_aes e io idp d (CUpdate tok oid obj)) by now rewrite Ec. unfold d1_aes. cbn [d1_do]. apply lw_ret_map. unfold d1_update.
      eapply (lw_changer tok ScopeUpdate oid _ (fun _ => RUnit) _ ba x); [exact Et|exact Hcl|discriminate|intros w m (_ & H1 & H2 & _); auto|..].
      { intros wi m r H. rewrite Ec. cbn [spec_step seen o_who o_rng_fails]. eapply access_weaken; [|exact H]. intros ? ? []. }
      intros i o acl a dek -> Hw Hs Hl -> Ho V. cbn [clean] in Hcl. destruct Hcl as (b & a' & dek' & -> & [= <-] & Ho' & Hb & _). rewrite Ho in Ho'. injection Ho' as <-.
      assert (Hcl : clean oid (Some b) (Some a) (Some (o, acl))) by (cbn; exists b, a, dek; auto 10).
      assert (HRand : rng_dead -> post (Err ERandom) (KMod oid (Some b) (Some a) (Some (o, acl))) None).
      { intros HR. eapply (post_random tok i ScopeUpdate oid); eauto; [intros w m (_ & _ & E & _); exact E|].
        intros m H. rewrite Ec. cbn [spec_step seen o_who o_rng_fails]. eapply access_weaken; [|exact H]. intros ? ? ?. now left. }
      apply lw_bindR. eapply lw_answers; [now apply an_object_seal|]. intros r [(ndek & so & -> & Eso & Hso)|[-> HR]]; [|auto].
      apply lw_bindR. eapply lw_answers; [now apply an_access_seal|]. intros r [(sa & -> & Esa & Hsa)|[-> HR]]; [|auto].
      cbn [a_groups a_dek] in Hsa. rewrite norm_set_valid in Hsa by (intros g Hg; now apply V).
      apply lw_bindR. unfold put_sealed_object. apply lw_map_err. rewrite Eso.
      eapply lw_mod_object; [apply (proj2 (cell_update v io Hio oid SO _ ltac:(reflexivity) (print_obj_nonempty _)))|].
      apply lw_bindR. unfold put_sealed_access. apply lw_map_err. rewrite Esa.
      eapply (lw_mod_access oid _ _ _ _ (Some (obj, acl)) _ _ (mkEvent (seen (Ok i)) c (Ok RUnit))).
      - apply (proj2 (cell_update v io Hio oid SA _ ltac:(reflexivity) (print_obj_nonempty _))).
      - cbn. do 3 eexists. split; [reflexivity|]. split; [reflexivity|]. split; [exact Hsa|]. split; [exact Hso|exact V].
      - intros w m HG Em. split; [reflexivity|]. split; [eapply seen_ok; eauto|]. cbn [ev_outside ev_reply]. rewrite Ec. cbn [spec_step seen o_who o_rng_fails].
        unfold with_access, with_scope. right. split; [exact Hs|]. rewrite Em. right. split; [exact Hl|]. right. split; reflexivity.
      - intros o' [=].
      - cbn [lw]. split; [|now left]. cbn. do 3 eexists. split; [reflexivity|]. split; [reflexivity|]. split; [exact Hsa|]. split; [exact Hso|exact V].
    Qed.

    Lemma lw_regroup (tok : bytes) (oid : uuid) (h : gset bytes -> gset bytes) (q : access -> prog W (res unit)) (bo ba : option bytes) (x : content) : call_token c = Some tok -> uuid_wf oid -> clean oid bo ba x ->
      (forall acl g, (forall g, g ∈ acl -> valid_utf8 g = true) -> g ∈ h acl -> valid_utf8 g = true) ->
      (forall acl (dek : bytes), (forall g, g ∈ acl -> valid_utf8 g = true) -> exists s, norm_set s = Some (h acl) /\
         q (mkAccess (Some acl) (Some dek)) = bindR (access_seal ac (mkAccess s (Some dek)) oid) (fun sa => put_sealed_access io sa true)) ->
      (forall wi m r m', with_access ScopeModifyAccessGroups wi oid m r m' (fun o acl => or_random rng_dead m r m' (r = Ok RUnit /\ m' = <[oid := (o, h acl)]> m)) ->
         spec_step (seen wi) c m r m') ->
      lw (bindR (verify_access idp tok ScopeModifyAccessGroups) (fun i => bindR (get_sealed_access io oid) (fun sa => bindR (authorize_access ac i ScopeModifyAccessGroups sa) q)))
        (fun r k com => post (res_map (fun _ => RUnit) r) k com) (KAcl oid bo ba x) None.
    Proof.
      intros Et Hoid Hcl Hh Hq Hspec.
      eapply (lw_changer tok ScopeModifyAccessGroups oid (fun _ => q) (fun _ => RUnit) _ ba x); [exact Et|exact Logic.I|discriminate|intros w m (_ & H1 & H2 & _); auto|..].
      { intros wi m r H. apply Hspec. eapply access_weaken; [|exact H]. intros ? ? []. }
      intros i o acl a dek -> Hw Hs Hl -> Ho V. destruct (Hq acl dek V) as (s & En & ->).
      cbn [clean] in Hcl. destruct Hcl as (b & a' & dek' & -> & [= <-] & Ho' & Hb & _). rewrite Ho in Ho'. injection Ho' as <-.
      apply lw_bindR. eapply lw_answers; [now apply an_access_seal|]. intros r [(sa & -> & Esa & Hsa)|[-> HR]].
      2:{ eapply (post_random tok i ScopeModifyAccessGroups oid); eauto; [exact Logic.I|intros w m (_ & _ & E & _); exact E|].
          intros m H. apply Hspec. eapply access_weaken; [|exact H]. intros ? ? ?. now left. }
      cbn [a_groups a_dek] in Hsa. rewrite En in Hsa. unfold put_sealed_access. apply lw_map_err. rewrite Esa.
      eapply (lw_acl_access oid _ _ _ _ (Some (o, h acl)) _ _ (mkEvent (seen (Ok i)) c (Ok RUnit))).
      - apply (proj2 (cell_update v io Hio oid SA _ ltac:(reflexivity) (print_obj_nonempty _))).
      - cbn. do 3 eexists. split; [reflexivity|]. split; [reflexivity|]. split; [exact Hsa|]. split; [exact Hb|]. intros g. now apply Hh.
      - intros w m HG Em. split; [reflexivity|]. split; [eapply seen_ok; eauto|]. cbn [ev_outside ev_reply]. apply Hspec.
        unfold with_access, with_scope. right. split; [exact Hs|]. rewrite Em. right. split; [exact Hl|]. right. split; reflexivity.
      - intros o' [=].
      - split; [exact Logic.I|]. now left.
    Qed.
    Lemma lw_add_groups tok oid gs bo ba x : c = CAddGroups tok oid gs -> uuid_wf oid -> clean oid bo ba x -> lw (d1_aes e io idp d c) post (KAcl oid bo ba x) None.
    Proof.
      intros Ec Hoid Hcl. replace (d1_aes e io idp d c) with (d1_aes e io idp d (CAddGroups tok oid gs)) by now rewrite Ec. unfold d1_aes. cbn [d1_do]. apply lw_ret_map. unfold d1_add_groups.
      eapply (lw_regroup tok oid (fun acl => acl ∪ list_to_set (map as_text gs))); [now rewrite Ec|exact Hoid|exact Hcl|..].
      - intros acl g V Hg. apply elem_of_union in Hg as [Hg|Hg]; [now apply V|now apply (texts_valid gs)].
      - intros acl dek V. exists (Some (acl ∪ list_to_set gs)). split; [apply norm_union; exact V|]. cbn [a_groups a_dek].
        assert (Eg : add_groups (Some acl) gs = Ok (Some (acl ∪ list_to_set gs))).
        { destruct gs as [|g gs']; cbn [add_groups]; do 2 f_equal; set_solver. }
        rewrite Eg. reflexivity.
      - intros wi m r m' H. rewrite Ec. exact H.
    Qed.
    Lemma lw_remove_groups tok oid gs bo ba x : c = CRemoveGroups tok oid gs -> uuid_wf oid -> clean oid bo ba x -> lw (d1_aes e io idp d c) post (KAcl oid bo ba x) None.
    Proof.
      intros Ec Hoid Hcl. replace (d1_aes e io idp d c) with (d1_aes e io idp d (CRemoveGroups tok oid gs)) by now rewrite Ec. unfold d1_aes. cbn [d1_do]. apply lw_ret_map. unfold d1_remove_groups.
      eapply (lw_regroup tok oid (fun acl => acl ∖ list_to_set gs)); [now rewrite Ec|exact Hoid|exact Hcl|..].
      - intros acl g V Hg. apply V. set_solver.
      - intros acl dek V. exists (Some (acl ∖ list_to_set gs)). split; [apply norm_set_valid; intros g Hg; apply V; set_solver|]. reflexivity.
      - intros wi m r m' H. rewrite Ec. exact H.
    Qed.

    Lemma lw_delete tok oid bo ba x : c = CDelete tok oid -> clean oid bo ba x -> lw (d1_aes e io idp d c) post (KMod oid bo ba x) None.
    Proof.
      intros Ec Hcl. assert (Et : call_token c = Some tok) by now rewrite Ec.
      replace (d1_aes e io idp d c) with (d1_aes e io idp d (CDelete tok oid)) by now rewrite Ec. unfold d1_aes. cbn [d1_do]. apply lw_ret_map. unfold d1_delete.
      apply lw_start.
      2:{ intros wi r Hw Ht. split; [exact Hcl|]. right. split; [reflexivity|]. eapply turned_may; [exact Et|exact Hw|eapply turned_map; exact Ht|].
          intros m Hm. rewrite Ec. cbn [spec_step seen o_who]. eapply scope_weaken; [|exact Hm]. intros i0 []. }
      intros i Hw Hs.
      assert (HM : forall r, (forall o, r <> Ok (ROid o)) -> (forall m, m !! oid = x -> spec_step (seen (Ok i)) c m r m) -> post r (KMod oid bo ba x) None).
      { intros r Hr H. split; [exact Hcl|]. right. split; [reflexivity|]. split; [exact Hr|]. intros w m _ (_ & _ & E & _). exists (seen (Ok i)).
        split; [eapply seen_ok; eauto|]. now apply H. }
      apply lw_bind, lw_get_acc. intros w m HG HC. exists (KMod oid bo ba x), None, None. split; [exact HC|]. split; [reflexivity|]. split; [split; reflexivity|].
      destruct HC as (C1 & C2 & C3 & C4). rewrite C3. destruct x as [[o acl]|].
      - intros sa a dek Ea Ho Esa Hj V. apply lw_bindR. eapply lw_authorize; [rewrite Esa; exact Hj|].
        pose proof (authorized_on_list i ScopeDelete acl (Some dek) Hs) as HA. destruct (authorized i ScopeDelete _).
        2:{ apply HM; [discriminate|]. intros m' Em. rewrite Ec. cbn [spec_step seen o_who]. unfold with_scope, refuse. right. split; [exact Hs|]. rewrite Em.
            left. split; [|split; reflexivity]. intros Hl. apply HA in Hl. discriminate. }
        assert (Hl : on_list i ScopeDelete acl) by now apply HA. clear HA.
        apply lw_bindR. unfold delete_sealed_object. eapply lw_mod_object; [apply (cell_delete v io Hio oid SO _ ltac:(reflexivity))|].
        apply lw_bindR. unfold delete_sealed_access.
        eapply (lw_mod_access oid _ _ _ _ None _ _ (mkEvent (seen (Ok i)) c (Ok RUnit))).
        + apply (cell_delete v io Hio oid SA _ ltac:(reflexivity)).
        + split; reflexivity.
        + intros w' m' HG' Em. split; [reflexivity|]. split; [eapply seen_ok; eauto|]. cbn [ev_outside ev_reply]. rewrite Ec. cbn [spec_step seen o_who].
          unfold with_scope. right. split; [exact Hs|]. rewrite Em. right. split; [exact Hl|]. split; reflexivity.
        + intros o' [=].
        + cbn [lw]. split; [split; reflexivity|]. now left.
      - cbn [lw]. apply HM; [discriminate|]. intros m' Em. rewrite Ec. cbn [spec_step seen o_who]. unfold with_scope. right. split; [exact Hs|]. rewrite Em. auto.
    Qed.

    Lemma lw_new_v4 (Q : res uuid -> know -> outcome -> Prop) com :
      (forall i b, draw e i 16 = Ok b -> Q (Ok (uuid_v4 b)) (KMod (uuid_v4 b) None None None) com) ->
      (rng_dead -> Q (Err ERandom) KFree com) -> lw (new_v4 e) Q KFree com.
    Proof.
      intros H1 H2. unfold new_v4. apply lw_bindR. unfold get_bytes, act. cbn [lw]. intros w m HG _ HB. cbn [snd w_draws set_draws] in HB.
      assert (HK : keeps w (set_draws w (w_draws w + 1))) by (split; [apply (gl_inv _ _ HG)|]; split; [cbn; lia|]; reflexivity).
      pose proof (gl_n0 _ _ HG) as Hn0. cbn [fst snd]. destruct (draw_cases e (w_draws w) 16) as [(b & E & L)|E]; rewrite E.
      - exists (KMod (uuid_v4 b) None None None), com, m, None. split; [eapply gl_keeps; eauto|]. split; [|split; [|split; [|split; [|split]]]].
        + cbn. destruct (gl_new _ _ HG (w_draws w) b ltac:(lia) E) as [E1 E2].
          split; [exact E1|]. split; [exact E2|]. split; [apply (gl_absent w m (w_draws w) b HG ltac:(lia) E)|]. eapply (drawn_settled _ _ (w_draws w)); [cbn; lia|cbn; lia|exact E|reflexivity].
        + now apply framed_keeps.
        + cbn. split; [lia|eauto].
        + cbn. lia.
        + split; reflexivity.
        + cbn [lw]. eauto.
      - exists KFree, com, m, None. split; [eapply gl_keeps; eauto|]. split; [exact Logic.I|]. split; [now apply framed_keeps|]. split; [exact Logic.I|]. split; [cbn; lia|].
        split; [split; reflexivity|]. apply H2. eexists _, _. exact E.
    Qed.

    Lemma lw_encrypt tok obj gs : c = CEncrypt tok obj gs -> lw (d1_aes e io idp d c) post KFree None.
    Proof.
      intros Ec. assert (Et : call_token c = Some tok) by now rewrite Ec.
      replace (d1_aes e io idp d c) with (d1_aes e io idp d (CEncrypt tok obj gs)) by now rewrite Ec. unfold d1_aes. cbn [d1_do]. apply lw_ret_map. unfold d1_encrypt.
      apply lw_start.
      2:{ intros wi r Hw Ht. split; [exact Logic.I|]. right. split; [reflexivity|]. eapply turned_may; [exact Et|exact Hw|eapply turned_map; exact Ht|].
          intros m Hm. rewrite Ec. cbn [spec_step seen o_who]. eapply scope_weaken; [|exact Hm]. intros i0 []. }
      intros i Hw Hs.
      assert (HRand : forall k, tidy k -> rng_dead -> post (Err ERandom) k None).
      { intros k Ht HR. split; [exact Ht|]. right. split; [reflexivity|]. split; [discriminate|]. intros w m _ _. exists (seen (Ok i)). split; [eapply seen_ok; eauto|].
        rewrite Ec. cbn [spec_step seen o_who o_rng_fails]. right. split; [exact Hs|]. left. split; [exact HR|split; reflexivity]. }
      apply lw_bindR, lw_new_v4; [|intros HR; apply HRand; [exact Logic.I|exact HR]].
      intros j b Hb. set (oid := uuid_v4 b).
      assert (Hoid : uuid_wf oid) by (apply uuid_v4_wf; apply draw_length in Hb; unfold blen in Hb; lia).
      assert (Ht0 : tidy (KMod oid None None None)) by (split; reflexivity).
      apply lw_bindR. eapply lw_answers; [now apply an_object_seal|]. intros r [(dek & so & -> & Eso & Hso)|[-> HR]]; [|apply HRand; assumption].
      assert (Eg : add_groups (a_groups (new_access dek)) (gs ++ [i_id i]) = Ok (Some (list_to_set (i_id i :: gs)))).
      { assert (E : (list_to_set (gs ++ [i_id i]) : gset bytes) = list_to_set (i_id i :: gs)) by set_solver. cbn [new_access a_groups].
        destruct (gs ++ [i_id i]) as [|g gs'] eqn:El; [destruct gs; discriminate|]. cbn [add_groups]. rewrite <- E. do 2 f_equal. set_solver. }
      apply lw_bindR. rewrite Eg. cbn [lift lw].
      apply lw_bindR. eapply lw_answers; [now apply an_access_seal|]. intros r [(sa & -> & Esa & Hsa)|[-> HR]]; [|apply HRand; assumption].
      cbn [a_groups a_dek new_access] in Hsa. rewrite norm_texts in Hsa. pose proof (texts_valid (i_id i :: gs)) as V.
      assert (Hcl : clean oid (Some (print (enc_sealed_object so))) (Some (print (enc_sealed_access sa))) (Some (obj, list_to_set (map as_text (i_id i :: gs))))).
      { cbn [clean]. do 3 eexists. split; [reflexivity|]. split; [reflexivity|]. split; [exact Hsa|]. split; [exact Hso|exact V]. }
      apply lw_bindR. unfold put_sealed_object. apply lw_map_err. rewrite Eso.
      eapply lw_mod_object; [apply (proj1 (cell_put v io Hio oid SO _ ltac:(reflexivity) (print_obj_nonempty _)))|].
      apply lw_bindR. unfold put_sealed_access. apply lw_map_err. rewrite Esa.
      eapply (lw_mod_access oid _ _ _ _ _ _ _ (mkEvent (mkOutside (Ok i) rng_dead (Ok oid)) c (Ok (ROid oid)))).
      - apply (proj1 (cell_put v io Hio oid SA _ ltac:(reflexivity) (print_obj_nonempty _))).
      - exact Hcl.
      - intros w m HG Em. split; [reflexivity|]. split.
        { cbn [ev_outside]. split; [|split]; cbn [o_who o_rng_fails o_id]; [|auto|].
          - intros tok' E'. congruence.
          - intros oid' [= <-]. exists j, b. split; [exact Hb|reflexivity]. }
        cbn [ev_outside ev_reply]. rewrite Ec. cbn [spec_step o_who o_rng_fails o_id]. right. split; [exact Hs|]. right. exists oid. split; [reflexivity|].
        rewrite Em. split; reflexivity.
      - intros o' [=]. auto.
      - cbn [lw]. split; [exact Hcl|]. now left.
    Qed.
    Lemma lw_get_groups tok oid : c = CGetAccessGroups tok oid -> lw (d1_aes e io idp d c) post KFree None.
    Proof.
      intros Ec. replace (d1_aes e io idp d c) with (d1_aes e io idp d (CGetAccessGroups tok oid)) by now rewrite Ec. unfold d1_aes. cbn [d1_do]. apply lw_ret_map. unfold d1_get_access_groups.
      apply (lw_list_reader _ tok ScopeGetAccessGroups oid (fun acl => Some acl) RGroups a_groups); [now rewrite Ec|reflexivity|discriminate|].
      intros wi m r H. rewrite Ec. cbn [spec_step seen o_who]. eapply access_weaken; [|exact H]. auto.
    Qed.
    Lemma lw_authorize_call tok oid : c = CAuthorize tok oid -> lw (d1_aes e io idp d c) post KFree None.
    Proof.
      intros Ec. replace (d1_aes e io idp d c) with (d1_aes e io idp d (CAuthorize tok oid)) by now rewrite Ec. unfold d1_aes. cbn [d1_do]. apply lw_ret_map. unfold d1_authorize.
      apply (lw_list_reader _ tok ScopeGetAccessGroups oid (fun _ => tt) (fun _ => RUnit) (fun _ => tt)); [now rewrite Ec|reflexivity|discriminate|].
      intros wi m r H. rewrite Ec. cbn [spec_step seen o_who]. eapply access_weaken; [|exact H]. auto.
    Qed.
    Lemma an_time_now : answers (time_now e) (fun _ => True).
    Proof. unfold time_now. apply an_act. intros w. split; [reflexivity|]. split; [cbn; lia|exact Logic.I]. Qed.
    Lemma lw_create_token pt : c = CCreateToken pt -> lw (d1_aes e io idp d c) post KFree None.
    Proof.
      intros Ec. replace (d1_aes e io idp d c) with (d1_aes e io idp d (CCreateToken pt)) by now rewrite Ec. unfold d1_aes. cbn [d1_do]. apply lw_ret_map. unfold d1_create_token.
      assert (HP : forall r, post (res_map RToken r) KFree None).
      { intros r. split; [exact Logic.I|]. right. split; [reflexivity|]. split; [intros o; destruct r; discriminate|]. intros w m _ _.
        exists (mkOutside Panic False (Err ERandom)). split; [|rewrite Ec; split; [reflexivity|]; intros y Hy; destruct r; [|discriminate..]; injection Hy as <-; eauto].
        split; [|split]; cbn; [|tauto|discriminate]. rewrite Ec. discriminate. }
      apply lw_bind. unfold new_token. apply lw_bind. eapply lw_answers; [apply an_time_now|]. intros now _. cbn [lw].
      unfold token_seal. destruct (enc_time _) as [aad|]; [|apply HP]. unfold encrypt_json. cbn [c_enc aes_cryptor].
      apply lw_bindR. eapply lw_answers; [apply an_aes_enc|]. intros r [(wk & ct & -> & _)|[-> _]]; [|apply (HP (Err ERandom))]. cbn [lw]. apply HP.
    Qed.
    Lemma lw_token_contents t : c = CGetTokenContents t -> lw (d1_aes e io idp d c) post KFree None.
    Proof.
      intros Ec. replace (d1_aes e io idp d c) with (d1_aes e io idp d (CGetTokenContents t)) by now rewrite Ec. unfold d1_aes. cbn [d1_do]. apply lw_ret_map. unfold d1_get_token_contents.
      assert (HP : forall r, post (res_map RBytes r) KFree None).
      { intros r. split; [exact Logic.I|]. right. split; [reflexivity|]. split; [intros o; destruct r; discriminate|]. intros w m _ _.
        exists (mkOutside Panic False (Err ERandom)). split; [|rewrite Ec; split; [reflexivity|]; intros y Hy; destruct r; [|discriminate..]; injection Hy as <-; eauto].
        split; [|split]; cbn; [|tauto|discriminate]. rewrite Ec. discriminate. }
      apply lw_bindR. unfold token_unseal. apply lw_bind. eapply lw_answers; [apply an_time_now|]. intros now _.
      destruct (time_before _ _); [apply (HP (Err ETokenExpired))|]. destruct (enc_time _) as [aad|]; [|apply (HP (Err EJson))].
      apply lw_bindR. eapply lw_answers; [apply an_decrypt_json|]. intros r ->. destruct (open_json _ _ _ _ _) as [pt|x|]; cbn [lw]; [apply (HP (Ok _))|apply (HP (Err x))|apply (HP Panic)].
    Qed.

    (** What a call knows when it is made. *)
    Definition start (w : W) (m : objects) : know :=
      match c with
      | CUpdate _ oid _ | CDelete _ oid => KMod oid (slot w oid SO) (slot w oid SA) (m !! oid)
      | CAddGroups _ oid _ | CRemoveGroups _ oid _ => KAcl oid (slot w oid SO) (slot w oid SA) (m !! oid)
      | CDecrypt _ oid => KDec oid
      | _ => KFree
      end.
    Lemma lw_call w m : (forall oid, call_oid c = Some oid -> uuid_wf oid) ->
      (forall oid, call_oid c = Some oid -> rewrites c = true \/ regroups c = true -> clean oid (slot w oid SO) (slot w oid SA) (m !! oid)) ->
      lw (d1_aes e io idp d c) post (start w m) None.
    Proof.
      intros Hwf Hcl. unfold start. destruct c as [tok obj gs|tok oid obj|tok oid|tok oid|tok oid|tok oid gs|tok oid gs|tok oid|pt|t] eqn:Ec; rewrite <- Ec.
      - eapply lw_encrypt; exact Ec.
      - eapply lw_update; [exact Ec|apply Hwf; reflexivity|apply Hcl; auto].
      - eapply lw_decrypt; exact Ec.
      - eapply lw_delete; [exact Ec|apply Hcl; auto].
      - eapply lw_get_groups; exact Ec.
      - eapply lw_add_groups; [exact Ec|apply Hwf; reflexivity|apply Hcl; auto].
      - eapply lw_remove_groups; [exact Ec|apply Hwf; reflexivity|apply Hcl; auto].
      - eapply lw_authorize_call; exact Ec.
      - eapply lw_create_token; exact Ec.
      - eapply lw_token_contents; exact Ec.
    Qed.
  End Thread.

  (** ** All calls together *)
  Record ghost := mkGhost { g_know : know; g_com : option (res d1_reply); g_claim : option nat }.
  Definition claimed (w : W) (cl : option nat) (oid : uuid) : Prop :=
    exists j b, cl = Some j /\ (n0 <= j < w_draws w)%nat /\ draw e j 16 = Ok b /\ oid = uuid_v4 b.
  Definition kind_ok (c : d1_call) (w : W) (k : know) (cl : option nat) : Prop :=
    match k with
    | KFree => True
    | KMod oid _ _ _ => (rewrites c = true /\ call_oid c = Some oid) \/ claimed w cl oid
    | KAcl oid _ _ _ => regroups c = true /\ call_oid c = Some oid
    | KDec oid | KObj oid _ => decrypts c = true /\ call_oid c = Some oid
    end.
  Definition apart (k k' : know) : Prop :=
    match k, k' with
    | KFree, _ | _, KFree => True
    | KMod o _ _ _, (KMod o' _ _ _ | KAcl o' _ _ _ | KDec o' | KObj o' _) => o <> o'
    | (KAcl o _ _ _ | KDec o | KObj o _), KMod o' _ _ _ => o <> o'
    | KAcl o _ _ _, KAcl o' _ _ _ => o <> o'
    | _, _ => True
    end.
  Lemma apart_sym k k' : apart k k' -> apart k' k.
  Proof. destruct k, k'; cbn; auto. Qed.
  Lemma claimed_mono w w' cl oid : (w_draws w <= w_draws w')%nat -> claimed w cl oid -> claimed w' cl oid.
  Proof. intros H (j & b & H1 & H2 & H3). exists j, b. repeat split; [exact H1|lia|lia|apply H3..]. Qed.
  Lemma kind_mono c w w' k cl : (w_draws w <= w_draws w')%nat -> kind_ok c w k cl -> kind_ok c w' k cl.
  Proof. intros H. destruct k; cbn; auto. intros [?|?]; eauto using claimed_mono. Qed.
  Lemma compat_frame k' k w m w' m' : framed k' w m w' m' -> compat k' w' m' -> apart k' k -> (w_draws w <= w_draws w')%nat -> compat k w m -> compat k w' m'.
  Proof.
    intros HF HC HA HD.
    assert (HS : forall oid, settled w oid -> settled w' oid) by (intros; eapply settled_mono; eauto).
    destruct k' as [|o' bo' ba' x'|o' bo' ba' x'|o'|o' bo'];
      [destruct HF as [-> HF]| |destruct HF as [HF1 HF]|destruct HF as [-> HF]|destruct HF as [-> HF]];
      destruct k as [|o bo ba x|o bo ba x|o|o bo]; cbn [compat apart] in *; auto.
    all: try solve [destruct (HF o) as (E1 & E2 & E3); [congruence|]; rewrite ?E1, ?E2, ?E3; intuition eauto].
    all: try solve [destruct (HF o) as (E1 & E2); rewrite ?E1, ?E2; intuition eauto].
    - destruct (decide (o = o')) as [->|Hne].
      + intros [_ Hs]. destruct HC as (C1 & C2 & C3 & C4 & C5). rewrite C1, C2, C3. auto.
      + destruct (HF o) as (E1 & E2 & E3); [congruence|]. rewrite E1, E2, E3. intuition eauto.
    - destruct (decide (o = o')) as [->|Hne].
      + intros [E Hs]. rewrite HF1. auto.
      + destruct (HF o) as (E1 & E2 & E3); [congruence|]. rewrite E1. intuition eauto.
  Qed.
  Lemma spec_roid x c m oid m' : spec_step x c m (Ok (ROid oid)) m' -> rewrites c = false.
  Proof.
    destruct c; cbn [rewrites]; try reflexivity; cbn [spec_step]; unfold with_access, with_scope, or_random, refuse; intros H;
      destruct (o_who x) as [i|y|]; try (destruct H as [H _]; discriminate H);
      (destruct H as [[_ [H _]]|[_ H]]; [discriminate H|]).
    - destruct (m !! oid0) as [[o acl]|]; [|destruct H as [H _]; discriminate H]. destruct H as [[_ [H _]]|[_ [[_ [H _]]|[H _]]]]; discriminate H.
    - destruct (m !! oid0) as [[o acl]|]; [|destruct H as [H _]; discriminate H]. destruct H as [[_ [H _]]|[_ [H _]]]; discriminate H.
  Qed.
  Lemma history_snoc m evs m1 ev m2 : spec_history m evs m1 -> spec_step (ev_outside ev) (ev_call ev) m1 (ev_reply ev) m2 -> spec_history m (evs ++ [ev]) m2.
  Proof. induction 1; cbn; intros Hs; econstructor; eauto. constructor. Qed.

  Definition real_time (tr : list d1_obs) (ds : list d1_did) : Prop := forall tr1 tr2, tr = tr1 ++ tr2 -> exists ds1 ds2, ds = ds1 ++ ds2 /\
     (forall t r, In (DReply t r) tr1 -> In t (map dn_call ds1)) /\ (forall t, In t (map dn_call ds1) -> (t < length (calls_of tr1))%nat).
  Record Core (m0 : objects) (tr : list d1_obs) (pool : list (prog W (res d1_reply))) (w : W) (m : objects) (ds : list d1_did) (gh : list ghost) : Prop := mkCore {
    co_len : length pool = length (calls_of tr);
    co_glen : length gh = length pool;
    co_gl : Gl w m;
    co_thread : forall t c p g, calls_of tr !! t = Some c -> pool !! t = Some p -> gh !! t = Some g ->
      compat (g_know g) w m /\ lw c p (post c) (g_know g) (g_com g) /\ kind_ok c w (g_know g) (g_claim g) /\
      (forall oid, g_com g = Some (Ok (ROid oid)) -> claimed w (g_claim g) oid /\ ((exists bo ba x, g_know g = KMod oid bo ba x) \/ exists r, p = Ret r));
    co_claim : forall t g j, gh !! t = Some g -> g_claim g = Some j -> (n0 <= j < w_draws w)%nat /\ forall t' g', gh !! t' = Some g' -> g_claim g' = Some j -> t' = t;
    co_apart : forall t t' g g', t <> t' -> gh !! t = Some g -> gh !! t' = Some g' -> apart (g_know g) (g_know g');
    co_clean : forall oid, (forall t g bo ba x, gh !! t = Some g -> g_know g <> KMod oid bo ba x) -> clean oid (slot w oid SO) (slot w oid SA) (m !! oid);
    co_hist : spec_history m0 (map dn_event ds) m;
    co_nodup : List.NoDup (map dn_call ds);
    co_ds : forall x, In x ds -> calls_of tr !! dn_call x = Some (ev_call (dn_event x)) /\ outside_ok e who (ev_call (dn_event x)) (ev_outside (dn_event x));
    co_com : forall t g, gh !! t = Some g -> match g_com g with Some r => exists x, In x ds /\ dn_call x = t /\ ev_reply (dn_event x) = r | None => ~ In t (map dn_call ds) end;
    co_reply : forall t r, In (DReply t r) tr -> pool !! t = Some (Ret r);
    co_rt : real_time tr ds }.
  Definition fin (pool : list (prog W (res d1_reply))) (gh : list ghost) (t : nat) : Prop :=
    forall r g, pool !! t = Some (Ret r) -> gh !! t = Some g -> g_know g = KFree /\ g_com g = Some r.

  Lemma rt_more tr ds x : real_time tr ds -> real_time tr (ds ++ [x]).
  Proof. intros H tr1 tr2 E. destruct (H tr1 tr2 E) as (ds1 & ds2 & -> & H1 & H2). exists ds1, (ds2 ++ [x]). rewrite app_assoc. auto. Qed.
  Lemma rt_obs tr ds o : real_time tr ds -> (forall t r, In (DReply t r) (tr ++ [o]) -> In t (map dn_call ds)) -> (forall x, In x ds -> (dn_call x < length (calls_of (tr ++ [o])))%nat) ->
    real_time (tr ++ [o]) ds.
  Proof.
    intros H H1 H2 tr1 tr2. destruct tr2 as [|o' tr2 _] using rev_ind.
    - rewrite app_nil_r. intros <-. exists ds, []. rewrite app_nil_r. split; [reflexivity|]. split; [exact H1|]. intros t Ht. apply in_map_iff in Ht as (x & <- & Hx). auto.
    - rewrite app_assoc. intros E. apply app_inj_tail in E as [E _]. exact (H _ _ E).
  Qed.
  Lemma calls_app tr tr' : calls_of (tr ++ tr') = calls_of tr ++ calls_of tr'.
  Proof. induction tr as [|[]]; cbn; [reflexivity|now f_equal|assumption]. Qed.

  (** A call that has come to its end is recorded as done. *)
  Lemma core_settle m0 tr pool w m ds gh t : Core m0 tr pool w m ds gh -> (forall t', t' <> t -> fin pool gh t') ->
    exists ds' gh', Core m0 tr pool w m ds' gh' /\ forall t', fin pool gh' t'.
  Proof.
    intros [C1 C2 C3 C4 C5 C6 C7 C8 C9 C10 C11 C12 C13] HF.
    destruct (pool !! t) as [[r|X f k]|] eqn:Ep.
    2:{ exists ds, gh. split; [constructor; assumption|]. intros t'. destruct (decide (t' = t)) as [->|Hne]; [|auto]. intros r g Hr. congruence. }
    2:{ exists ds, gh. split; [constructor; assumption|]. intros t'. destruct (decide (t' = t)) as [->|Hne]; [|auto]. intros r g Hr. congruence. }
    pose proof (lookup_lt_Some _ _ _ Ep) as Lt.
    destruct (lookup_lt_is_Some_2 gh t ltac:(lia)) as [g Eg]. destruct (lookup_lt_is_Some_2 (calls_of tr) t ltac:(lia)) as [c Ec].
    destruct (C4 t c _ g Ec Ep Eg) as (K1 & K2 & K3 & K4). cbn [lw] in K2. destruct K2 as [Ht Hp].
    assert (HR : exists ds' g', g' = mkGhost KFree (Some r) (g_claim g) /\
      spec_history m0 (map dn_event ds') m /\ List.NoDup (map dn_call ds') /\
      (forall x, In x ds' -> calls_of tr !! dn_call x = Some (ev_call (dn_event x)) /\ outside_ok e who (ev_call (dn_event x)) (ev_outside (dn_event x))) /\
      (forall t' g'', <[t := g']> gh !! t' = Some g'' -> match g_com g'' with Some r => exists x, In x ds' /\ dn_call x = t' /\ ev_reply (dn_event x) = r | None => ~ In t' (map dn_call ds') end) /\
      real_time tr ds' /\ (forall oid, Some r = Some (Ok (ROid oid)) -> claimed w (g_claim g) oid)).
    { destruct Hp as [Hc|[Hc [Hno Hm]]].
      - exists ds, (mkGhost KFree (Some r) (g_claim g)). split; [reflexivity|]. split; [exact C8|]. split; [exact C9|]. split; [exact C10|]. split; [|split; [exact C13|]].
        + intros t' g''. destruct (decide (t' = t)) as [->|Hne].
          * rewrite list_lookup_insert by lia. intros [= <-]. cbn. specialize (C11 t g Eg). now rewrite Hc in C11.
          * rewrite list_lookup_insert_ne by congruence. apply C11.
        + intros oid Ho. apply K4. congruence.
      - destruct (Hm w m C3 K1) as (x & Hx & Hs). exists (ds ++ [mkDone t (mkEvent x c r)]), (mkGhost KFree (Some r) (g_claim g)). split; [reflexivity|].
        pose proof (C11 t g Eg) as Hnt. rewrite Hc in Hnt. split; [|split; [|split; [|split; [|split]]]].
        + rewrite map_app. eapply history_snoc; [exact C8|exact Hs].
        + rewrite map_app. cbn. apply NoDup_ListNoDup, NoDup_app. split; [now apply NoDup_ListNoDup|]. split; [|apply NoDup_singleton].
          intros y Hy Hy'. apply elem_of_list_singleton in Hy' as ->. apply Hnt. now apply elem_of_list_In.
        + intros y Hy. apply in_app_iff in Hy as [Hy|[<-|[]]]; [now apply C10|]. cbn. auto.
        + intros t' g''. destruct (decide (t' = t)) as [->|Hne].
          * rewrite list_lookup_insert by lia. intros [= <-]. cbn. exists (mkDone t (mkEvent x c r)). rewrite in_app_iff. cbn. auto.
          * rewrite list_lookup_insert_ne by congruence. intros Hg''. specialize (C11 t' g'' Hg''). destruct (g_com g'').
            -- destruct C11 as (y & Hy & Hy'). exists y. rewrite in_app_iff. auto.
            -- rewrite map_app, in_app_iff. cbn. intros [?|[E|[]]]; [now apply C11|congruence].
        + now apply rt_more.
        + intros oid [= ->]. destruct (Hno oid eq_refl). }
    destruct HR as (ds' & g' & -> & R1 & R2 & R3 & R4 & R5 & R6).
    exists ds', (<[t := mkGhost KFree (Some r) (g_claim g)]> gh). split.
    - constructor; try assumption.
      + now rewrite insert_length.
      + intros t' c' p' g' Hc' Hp'. destruct (decide (t' = t)) as [->|Hne].
        * rewrite list_lookup_insert by lia. intros [= <-]. cbn. rewrite Ep in Hp'. injection Hp' as <-. split; [exact Logic.I|]. split; [|split; [exact Logic.I|eauto]].
          cbn [lw]. split; [exact Logic.I|]. now left.
        * rewrite list_lookup_insert_ne by congruence. now apply C4.
      + intros t' g' j. destruct (decide (t' = t)) as [->|Hne].
        * rewrite list_lookup_insert by lia. intros [= <-]. cbn. intros Hj. destruct (C5 t g j Eg Hj) as [Hj1 Hj2]. split; [exact Hj1|].
          intros t' g'. destruct (decide (t' = t)) as [->|Hne']; [auto|]. rewrite list_lookup_insert_ne by congruence. apply Hj2.
        * rewrite list_lookup_insert_ne by congruence. intros Hg' Hj. destruct (C5 t' g' j Hg' Hj) as [Hj1 Hj2]. split; [exact Hj1|].
          intros t'' g''. destruct (decide (t'' = t)) as [->|Hne'].
          -- rewrite list_lookup_insert by lia. intros [= <-]. cbn. intros Hj'. exact (Hj2 t g Eg Hj').
          -- rewrite list_lookup_insert_ne by congruence. apply Hj2.
      + intros t1 t2 g1 g2 Hne. destruct (decide (t1 = t)) as [->|H1].
        * rewrite list_lookup_insert by lia. intros [= <-] _. exact Logic.I.
        * rewrite list_lookup_insert_ne by congruence. destruct (decide (t2 = t)) as [->|H2].
          -- rewrite list_lookup_insert by lia. intros _ [= <-]. apply apart_sym. exact Logic.I.
          -- rewrite list_lookup_insert_ne by congruence. now apply C6.
      + intros oid Hno. destruct (g_know g) as [|o bo ba x| | |] eqn:Ek.
        2:{ destruct (decide (o = oid)) as [->|Hne]; [destruct K1 as (-> & -> & -> & _); exact Ht|].
            apply C7. intros t' g' bo' ba' x' Hg'. destruct (decide (t' = t)) as [->|Hne']; [congruence|].
            apply (Hno t'). rewrite list_lookup_insert_ne by congruence. exact Hg'. }
        all: apply C7; intros t' g' bo' ba' x' Hg'; destruct (decide (t' = t)) as [->|Hne']; [congruence|];
            apply (Hno t'); rewrite list_lookup_insert_ne by congruence; exact Hg'.
    - intros t' r' g'. destruct (decide (t' = t)) as [->|Hne].
      + rewrite list_lookup_insert by lia. intros Hr' [= <-]. cbn. split; [reflexivity|congruence].
      + rewrite list_lookup_insert_ne by congruence. now apply HF.
  Qed.

  Lemma core_env m0 tr pool w w' m ds gh : keeps w w' -> Core m0 tr pool w m ds gh -> Core m0 tr pool w' m ds gh.
  Proof.
    intros HK [C1 C2 C3 C4 C5 C6 C7 C8 C9 C10 C11 C12 C13]. pose proof (proj1 (proj2 HK)) as HD. constructor; try assumption.
    - eapply gl_keeps; eauto.
    - intros t c p g Hc Hp Hg. destruct (C4 t c p g Hc Hp Hg) as (K1 & K2 & K3 & K4). split; [eapply compat_keeps; eauto|]. split; [exact K2|].
      split; [eapply kind_mono; eauto|]. intros oid Ho. destruct (K4 oid Ho). split; [eapply claimed_mono; eauto|assumption].
    - intros t g j Hg Hj. destruct (C5 t g j Hg Hj) as [H1 H2]. split; [lia|exact H2].
    - intros oid Ho. destruct HK as (_ & _ & HS). rewrite !HS by auto. now apply C7.
  Qed.
  (** One step of one call. *)
  Lemma core_step m0 tr pool w m ds gh t X (f : W -> X * W) q : Core m0 tr pool w m ds gh -> (forall t', fin pool gh t') -> pool !! t = Some (Step f q) -> (w_draws (snd (f w)) <= n1)%nat ->
    exists m' ds' gh', Core m0 tr (<[t := q (fst (f w))]> pool) (snd (f w)) m' ds' gh' /\ forall t', t' <> t -> fin (<[t := q (fst (f w))]> pool) gh' t'.
  Proof.
    intros [C1 C2 C3 C4 C5 C6 C7 C8 C9 C10 C11 C12 C13] HF Ep HB.
    pose proof (lookup_lt_Some _ _ _ Ep) as Lt.
    destruct (lookup_lt_is_Some_2 gh t ltac:(lia)) as [g Eg]. destruct (lookup_lt_is_Some_2 (calls_of tr) t ltac:(lia)) as [c Ec].
    destruct (C4 t c _ g Ec Ep Eg) as (K1 & K2 & K3 & K4). cbn [lw] in K2.
    destruct (K2 w m C3 K1 HB) as (k' & com' & m' & ev & L1 & L2 & L3 & L4 & L5 & L6 & L7). clear K2.
    set (w' := snd (f w)) in *. set (p' := q (fst (f w))) in *.
    (* the id the call may have drawn *)
    assert (HC : exists cl', kind_ok c w' k' cl' /\ (forall j, cl' = Some j -> (n0 <= j < w_draws w')%nat /\ (g_claim g = Some j \/ (w_draws w <= j)%nat)) /\
      (g_know g = KFree \/ cl' = g_claim g)).
    { assert (HG : forall j, g_claim g = Some j -> (n0 <= j < w_draws w')%nat /\ (g_claim g = Some j \/ (w_draws w <= j)%nat)).
      { intros j Hj. destruct (C5 t g j Eg Hj) as [H1 _]. split; [lia|auto]. }
      pose proof (gl_n0 _ _ C3) as Hn0.
      destruct (g_know g) as [|o bo ba x|o bo ba x|o|o bo] eqn:Ek; destruct k' as [|o' bo' ba' x'|o' bo' ba' x'|o'|o' bo']; cbn [follows] in L4; try destruct L4.
      - exists (g_claim g). split; [exact Logic.I|]. auto.
      - destruct H0 as (b & Hb & ->). exists (Some (w_draws w)). split; [right; exists (w_draws w), b; split; [reflexivity|]; split; [lia|auto]|]. split; [|auto].
        intros j [= <-]. split; [lia|]. right. lia.
      - exists (g_claim g). split; [exact (kind_mono c w w' (KMod o bo' ba' x') _ L5 K3)|]. auto.
      - exists (g_claim g). split; [exact K3|]. auto.
      - exists (g_claim g). split; [exact K3|]. auto.
      - exists (g_claim g). split; [exact K3|]. auto.
      - exists (g_claim g). split; [exact K3|]. auto. }
    destruct HC as (cl' & HC1 & HC2 & HC3).
    set (g' := mkGhost k' com' cl').
    exists m', (match ev with None => ds | Some v => ds ++ [mkDone t v] end), (<[t := g']> gh). split.
    2:{ intros t' Hne r g''. rewrite !list_lookup_insert_ne by congruence. apply HF. }
    (* nobody else is concerned *)
    assert (HA : forall t' g'', t' <> t -> gh !! t' = Some g'' -> apart k' (g_know g'')).
    { intros t' g'' Hne Hg''. pose proof (C6 t t' g g'' ltac:(congruence) Eg Hg'') as HA.
      destruct (g_know g) as [|o bo ba x|o bo ba x|o|o bo] eqn:Ek; destruct k' as [|o' bo' ba' x'|o' bo' ba' x'|o'|o' bo']; cbn [follows] in L4; try destruct L4; try exact HA.
      - destruct H0 as (b & Hb & ->). destruct (lookup_lt_is_Some_2 pool t' ltac:(rewrite <- C2; eapply lookup_lt_Some; exact Hg'')) as [p'' Hp''].
        destruct (lookup_lt_is_Some_2 (calls_of tr) t' ltac:(rewrite <- C1, <- C2; eapply lookup_lt_Some; exact Hg'')) as [c'' Hc''].
        destruct (C4 t' c'' p'' g'' Hc'' Hp'' Hg'') as (KC & _). destruct (g_know g''); cbn [apart]; [exact Logic.I|..];
          (assert (Hset : settled w oid) by apply KC); apply (Hset (w_draws w) b ltac:(lia) Hb). }
    assert (HO : forall oid, com' = Some (Ok (ROid oid)) -> claimed w' cl' oid /\ exists bo ba x, k' = KMod oid bo ba x).
    { intros oid Ho. destruct ev as [ev|]; cbn [acts] in L6.
      - destruct L6 as (_ & E1 & E2 & _ & Hs & Hk). rewrite E1 in Ho. injection Ho as Ho. destruct (Hk oid Ho) as (bo & ba & x & ->). rewrite Ho in Hs. apply spec_roid in Hs.
        destruct HC1 as [[HC1 _]|HC1]; [congruence|]. eauto.
      - destruct L6 as [-> ->]. destruct (K4 oid Ho) as [Hcl [(bo & ba & x & Ek)|[r Er]]]; [|discriminate]. rewrite Ek in *.
        destruct k'; cbn [follows] in L4; try destruct L4. destruct HC3 as [[=]|HC3]. subst cl'. split; [eapply claimed_mono; eauto|eauto]. }
    constructor.
    - rewrite insert_length. exact C1.
    - rewrite !insert_length. exact C2.
    - exact L1.
    - intros t' c' p'' g'' Hc'. destruct (decide (t' = t)) as [->|Hne].
      + rewrite !list_lookup_insert by lia. intros [= <-] [= <-]. rewrite Ec in Hc'. injection Hc' as <-. cbn [g_know g_com g_claim g'].
        split; [exact L2|]. split; [exact L7|]. split; [exact HC1|]. intros oid Ho. destruct (HO oid Ho) as [H1 H2]. auto.
      + rewrite !list_lookup_insert_ne by congruence. intros Hp'' Hg''. destruct (C4 t' c' p'' g'' Hc' Hp'' Hg'') as (J1 & J2 & J3 & J4).
        split; [eapply compat_frame; eauto|]. split; [exact J2|]. split; [eapply kind_mono; eauto|]. intros oid Ho. destruct (J4 oid Ho). split; [eapply claimed_mono; eauto|assumption].
    - intros t' g'' j. destruct (decide (t' = t)) as [->|Hne].
      + rewrite list_lookup_insert by lia. intros [= <-]. cbn [g_claim g']. intros Hj. destruct (HC2 j Hj) as [Hj1 Hj2]. split; [exact Hj1|].
        intros t' g''. destruct (decide (t' = t)) as [->|Hne']; [auto|]. rewrite list_lookup_insert_ne by congruence. intros Hg'' Hj'.
        destruct Hj2 as [Hj2|Hj2]; [exact (proj2 (C5 t g j Eg Hj2) t' g'' Hg'' Hj')|]. destruct (C5 t' g'' j Hg'' Hj') as [? _]. lia.
      + rewrite list_lookup_insert_ne by congruence. intros Hg'' Hj. destruct (C5 t' g'' j Hg'' Hj) as [Hj1 Hj2]. split; [lia|].
        intros t2 g2. destruct (decide (t2 = t)) as [->|Hne'].
        * rewrite list_lookup_insert by lia. intros [= <-]. cbn [g_claim g']. intros Hj'. destruct (HC2 j Hj') as [_ [Hj3|Hj3]]; [exact (Hj2 t g Eg Hj3)|lia].
        * rewrite list_lookup_insert_ne by congruence. apply Hj2.
    - intros t1 t2 g1 g2 Hne. destruct (decide (t1 = t)) as [->|H1].
      + rewrite list_lookup_insert by lia. intros [= <-]. rewrite list_lookup_insert_ne by congruence. cbn [g_know g']. apply HA. congruence.
      + rewrite list_lookup_insert_ne by congruence. destruct (decide (t2 = t)) as [->|H2].
        * rewrite list_lookup_insert by lia. intros Hg1 [= <-]. cbn [g_know g']. apply apart_sym. eapply HA; eauto.
        * rewrite list_lookup_insert_ne by congruence. now apply C6.
    - intros oid Hno.
      assert (Hk' : forall bo ba x, k' <> KMod oid bo ba x).
      { intros bo ba x. apply (Hno t g' bo ba x). now rewrite list_lookup_insert by lia. }
      assert (Hold : clean oid (slot w oid SO) (slot w oid SA) (m !! oid)).
      { apply C7. intros t' g'' bo ba x Hg''. destruct (decide (t' = t)) as [->|Hne].
        - rewrite Eg in Hg''. injection Hg'' as <-. intros Ek. rewrite Ek in L4. destruct k'; cbn [follows] in L4; try destruct L4. eapply Hk'; reflexivity.
        - apply (Hno t'). now rewrite list_lookup_insert_ne by congruence. }
      destruct k' as [|o' bo' ba' x'|o' bo' ba' x'|o'|o' bo']; cbn [framed] in L3.
      + destruct L3 as [-> L3]. destruct (L3 oid) as [-> ->]. exact Hold.
      + destruct (L3 oid) as (-> & -> & ->); [intros ->; eapply Hk'; reflexivity|exact Hold].
      + destruct L3 as [L3 L3']. destruct (decide (oid = o')) as [->|Hne]; [destruct L2 as (-> & -> & -> & _ & L2); exact L2|].
        destruct (L3' oid Hne) as (-> & -> & ->). exact Hold.
      + destruct L3 as [-> L3]. destruct (L3 oid) as [-> ->]. exact Hold.
      + destruct L3 as [-> L3]. destruct (L3 oid) as [-> ->]. exact Hold.
    - destruct ev as [ev|]; cbn [acts] in L6; [|destruct L6 as [_ ->]; exact C8]. destruct L6 as (_ & _ & E & _ & Hs & _).
      rewrite map_app. eapply history_snoc; [exact C8|]. cbn. rewrite E. exact Hs.
    - destruct ev as [ev|]; cbn [acts] in L6; [|exact C9]. destruct L6 as (E & _). pose proof (C11 t g Eg) as Hnt. rewrite E in Hnt.
      rewrite map_app. cbn. apply NoDup_ListNoDup, NoDup_app. split; [now apply NoDup_ListNoDup|]. split; [|apply NoDup_singleton].
      intros y Hy Hy'. apply elem_of_list_singleton in Hy' as ->. apply Hnt. now apply elem_of_list_In.
    - destruct ev as [ev|]; cbn [acts] in L6; [|exact C10]. destruct L6 as (_ & _ & E & Hx & _). intros y Hy. apply in_app_iff in Hy as [Hy|[<-|[]]]; [now apply C10|]. cbn. rewrite E. auto.
    - intros t' g''. destruct (decide (t' = t)) as [->|Hne].
      + rewrite list_lookup_insert by lia. intros [= <-]. cbn [g_com g']. destruct ev as [ev|]; cbn [acts] in L6.
        * destruct L6 as (_ & -> & _). exists (mkDone t ev). rewrite in_app_iff. cbn. auto.
        * destruct L6 as [-> _]. exact (C11 t g Eg).
      + rewrite list_lookup_insert_ne by congruence. intros Hg''. specialize (C11 t' g'' Hg''). destruct ev as [ev|]; [|exact C11]. destruct (g_com g'').
        * destruct C11 as (y & Hy & Hy'). exists y. rewrite in_app_iff. auto.
        * rewrite map_app, in_app_iff. cbn. intros [?|[E|[]]]; [now apply C11|congruence].
    - intros t' r Hr. destruct (decide (t' = t)) as [->|Hne]; [specialize (C12 t r Hr); congruence|]. rewrite list_lookup_insert_ne by congruence. now apply C12.
    - destruct ev; [now apply rt_more|exact C13].
  Qed.
  Lemma core_reply m0 tr pool w m ds gh t r : Core m0 tr pool w m ds gh -> (forall t', fin pool gh t') -> pool !! t = Some (Ret r) -> Core m0 (tr ++ [DReply t r]) pool w m ds gh.
  Proof.
    intros [C1 C2 C3 C4 C5 C6 C7 C8 C9 C10 C11 C12 C13] HF Ep.
    assert (Ec : calls_of (tr ++ [DReply t r]) = calls_of tr) by (rewrite calls_app; apply app_nil_r).
    assert (Hr : forall t' r', In (DReply t' r') (tr ++ [DReply t r]) -> pool !! t' = Some (Ret r')).
    { intros t' r' Hin. apply in_app_iff in Hin as [Hin|[[= <- <-]|[]]]; [now apply C12|exact Ep]. }
    constructor; rewrite ?Ec; try assumption. apply rt_obs; [exact C13| |].
    - intros t' r' Hin. specialize (Hr t' r' Hin). pose proof (lookup_lt_Some _ _ _ Hr) as Lt. destruct (lookup_lt_is_Some_2 gh t' ltac:(lia)) as [g Eg].
      destruct (HF t' r' g Hr Eg) as [_ E]. specialize (C11 t' g Eg). rewrite E in C11. destruct C11 as (x & Hx & <- & _). now apply in_map.
    - intros x Hx. rewrite Ec. destruct (C10 x Hx) as [H _]. eapply lookup_lt_Some; exact H.
  Qed.
  (** A new call: nobody at odds with it is running. *)
  Lemma core_call m0 tr pool w m ds gh c : Core m0 tr pool w m ds gh -> (forall t', fin pool gh t') ->
    (forall oid, call_oid c = Some oid -> uuid_wf oid) ->
    (forall t c', nth_error (calls_of tr) t = Some c' -> at_odds c' c -> exists r, In (DReply t r) tr) ->
    (w_draws w <= n1)%nat -> (forall i b, (n0 <= i < n1)%nat -> draw e i 16 = Ok b -> call_oid c = Some (uuid_v4 b) -> exists t, In (DReply t (Ok (ROid (uuid_v4 b)))) tr) ->
    exists gh', Core m0 (tr ++ [DCall c]) (pool ++ [d1_aes e io idp d c]) w m ds gh' /\ forall t', t' <> length pool -> fin (pool ++ [d1_aes e io idp d c]) gh' t'.
  Proof.
    intros [C1 C2 C3 C4 C5 C6 C7 C8 C9 C10 C11 C12 C13] HF Hwf Hord HB Hng.
    assert (HT : forall t g, gh !! t = Some g -> exists c' p, calls_of tr !! t = Some c' /\ pool !! t = Some p).
    { intros t g Hg. apply lookup_lt_Some in Hg. destruct (lookup_lt_is_Some_2 (calls_of tr) t ltac:(lia)) as [c' ?]. destruct (lookup_lt_is_Some_2 pool t ltac:(lia)) as [p ?]. eauto. }
    (* an id that has been returned was drawn by the call that returned it *)
    assert (HRo : forall t oid, In (DReply t (Ok (ROid oid))) tr -> exists g, gh !! t = Some g /\ g_know g = KFree /\ claimed w (g_claim g) oid).
    { intros t oid Hin. specialize (C12 _ _ Hin). pose proof (lookup_lt_Some _ _ _ C12) as Lt. destruct (lookup_lt_is_Some_2 gh t ltac:(lia)) as [g Eg].
      destruct (HF t _ g C12 Eg) as [E1 E2]. exists g. split; [exact Eg|]. split; [exact E1|]. destruct (HT t g Eg) as (c' & p & Hc' & Hp). eapply (C4 t c' p g); eauto. }
    assert (HSet : forall oid, call_oid c = Some oid -> settled w oid).
    { intros oid Hoid i b Hi Hb <-. pose proof (gl_n0 _ _ C3) as Hn. destruct (Hng i b ltac:(lia) Hb Hoid) as [t Ht]. destruct (HRo _ _ Ht) as (g & _ & _ & j & b' & _ & Hj & Hb' & E).
      eapply (Hids i j b b'); eauto; lia. }
    (* a running call at odds with this one: there is none *)
    assert (HQ : forall t g c', gh !! t = Some g -> calls_of tr !! t = Some c' -> at_odds c' c -> g_know g = KFree).
    { intros t g c' Hg Hc' Ho. destruct (Hord t c') as [r Hr]; [|exact Ho|]. { rewrite nth_error_is_lookup. exact Hc'. } apply C12 in Hr. now destruct (HF t r g Hr Hg). }
    assert (HE : forall t g oid, gh !! t = Some g -> call_oid c = Some oid -> claimed w (g_claim g) oid -> g_know g = KFree).
    { intros t g oid Hg Hoid (j & b & Hj & Hj' & Hb & ->). destruct (Hng j b ltac:(lia) Hb Hoid) as [t' Ht']. destruct (HRo _ _ Ht') as (g2 & Hg2 & Hk & j2 & b2 & Hj2 & Hj2' & Hb2 & E).
      destruct (Nat.eq_dec j j2) as [<-|Hne]; [|exfalso; eapply (Hids j j2 b b2); eauto; lia]. destruct (C5 t g j Hg Hj) as [_ Hu]. rewrite (Hu t' g2 Hg2 Hj2) in Hg2. congruence. }
    assert (HM : forall t g oid bo ba x, gh !! t = Some g -> call_oid c = Some oid -> rewrites c = true \/ regroups c = true \/ decrypts c = true -> g_know g <> KMod oid bo ba x).
    { intros t g oid bo ba x Hg Hoid Hc Ek. destruct (HT t g Hg) as (c' & p & Hc' & Hp). destruct (C4 t c' p g Hc' Hp Hg) as (_ & _ & Hk & _). rewrite Ek in Hk. destruct Hk as [[Hk1 Hk2]|Hk].
      - assert (g_know g = KFree); [|congruence]. eapply HQ; eauto. split; [eauto|]. tauto.
      - assert (g_know g = KFree); [|congruence]. eapply HE; eauto. }
    assert (HL : forall t g oid bo ba x, gh !! t = Some g -> call_oid c = Some oid -> rewrites c = true \/ regroups c = true -> g_know g <> KAcl oid bo ba x).
    { intros t g oid bo ba x Hg Hoid Hc Ek. destruct (HT t g Hg) as (c' & p & Hc' & Hp). destruct (C4 t c' p g Hc' Hp Hg) as (_ & _ & Hk & _). rewrite Ek in Hk. destruct Hk as [Hk1 Hk2].
      assert (g_know g = KFree); [|congruence]. eapply HQ; eauto. split; [eauto|]. tauto. }
    assert (HDc : forall t g oid, gh !! t = Some g -> call_oid c = Some oid -> rewrites c = true -> g_know g <> KDec oid /\ forall bo, g_know g <> KObj oid bo).
    { intros t g oid Hg Hoid Hc. destruct (HT t g Hg) as (c' & p & Hc' & Hp). destruct (C4 t c' p g Hc' Hp Hg) as (_ & _ & Hk & _).
      split; [intros Ek|intros bo Ek]; rewrite Ek in Hk; destruct Hk as [Hk1 Hk2]; (assert (g_know g = KFree); [|congruence]); eapply HQ; eauto; (split; [eauto|tauto]). }
    assert (HCl : forall oid, call_oid c = Some oid -> rewrites c = true \/ regroups c = true \/ decrypts c = true -> clean oid (slot w oid SO) (slot w oid SA) (m !! oid)).
    { intros oid Hoid Hc. apply C7. intros t g bo ba x Hg. now apply (HM t g oid). }
    set (g' := mkGhost (start c w m) None None).
    assert (Hnew : (gh ++ [g']) !! length pool = Some g') by (rewrite lookup_app_r by lia; now rewrite <- C2, Nat.sub_diag).
    assert (Hcases : forall t g, (gh ++ [g']) !! t = Some g -> gh !! t = Some g /\ t <> length pool \/ t = length pool /\ g = g').
    { intros t g Hg. apply lookup_app_Some in Hg as [Hg|[Hle Hg]]; [left; split; [exact Hg|apply lookup_lt_Some in Hg; lia]|].
      apply list_lookup_singleton_Some in Hg as [Hz <-]. right. split; [lia|reflexivity]. }
    assert (Ecs : calls_of (tr ++ [DCall c]) = calls_of tr ++ [c]) by (rewrite calls_app; reflexivity).
    assert (HAp : forall t g, gh !! t = Some g -> apart (start c w m) (g_know g)).
    { intros t g Hg. unfold start. destruct c as [tok obj gs|tok oid obj|tok oid|tok oid|tok oid|tok oid gs|tok oid gs|tok oid|pt|tk]; try exact Logic.I;
        specialize (HM t g oid); specialize (HL t g oid); specialize (HDc t g oid); cbn [call_oid rewrites regroups decrypts] in *;
        destruct (g_know g) as [|o bo ba x|o bo ba x|o|o bo]; cbn [apart]; try exact Logic.I; intros <-.
      all: try (destruct (HDc Hg eq_refl eq_refl) as [H1 H2]; first [now apply H1|now eapply H2]).
      all: first [eapply HM; eauto; fail|eapply HL; eauto; fail]. }
    exists (gh ++ [g']). split.
    2:{ intros t' Hne r g Hr Hg. apply Hcases in Hg as [[Hg _]|[? _]]; [|congruence]. apply (HF t' r g); [|exact Hg].
        apply lookup_app_Some in Hr as [Hr|[Hle Hr]]; [exact Hr|]. apply lookup_lt_Some in Hg. lia. }
    constructor; rewrite ?Ecs; try assumption.
    - rewrite !app_length, C1. reflexivity.
    - rewrite !app_length, C2. reflexivity.
    - intros t c' p g Hc' Hp Hg. apply Hcases in Hg as [[Hg Hne]|[-> ->]].
      + apply (C4 t c' p g); [| |exact Hg].
        * rewrite lookup_app_l in Hc' by (apply lookup_lt_Some in Hg; lia). exact Hc'.
        * rewrite lookup_app_l in Hp by (apply lookup_lt_Some in Hg; lia). exact Hp.
      + rewrite lookup_app_r, C1, Nat.sub_diag in Hc' by lia. injection Hc' as <-. rewrite lookup_app_r, Nat.sub_diag in Hp by lia. injection Hp as <-.
        cbn [g_know g_com g_claim g']. split; [|split; [|split; [|discriminate]]].
        * unfold start. destruct c as [tok obj gs|tok oid obj|tok oid|tok oid|tok oid|tok oid gs|tok oid gs|tok oid|pt|tk]; cbn [compat]; auto 10.
        * apply lw_call; [exact Hwf|]. intros oid Hoid Hc. apply HCl; tauto.
        * unfold start. destruct c; cbn; auto.
    - intros t g j Hg Hj. apply Hcases in Hg as [[Hg Hne]|[-> ->]]; [|discriminate]. destruct (C5 t g j Hg Hj) as [H1 H2]. split; [exact H1|].
      intros t' g2 Hg2 Hj2. apply Hcases in Hg2 as [[Hg2 _]|[-> ->]]; [eauto|discriminate].
    - intros t1 t2 g1 g2 Hne Hg1 Hg2. apply Hcases in Hg1 as [[Hg1 H1]|[-> ->]]; apply Hcases in Hg2 as [[Hg2 H2]|[-> ->]]; [eauto| | |congruence].
      + apply apart_sym. eauto.
      + eauto.
    - intros oid Hno. apply C7. intros t g bo ba x Hg. apply (Hno t). apply lookup_app_l_Some. exact Hg.
    - intros x Hx. destruct (C10 x Hx) as [H1 H2]. split; [apply lookup_app_l_Some; exact H1|exact H2].
    - intros t g Hg. apply Hcases in Hg as [[Hg Hne]|[-> ->]]; [now apply C11|]. cbn. intros Hin. apply in_map_iff in Hin as (x & E & Hx).
      destruct (C10 x Hx) as [H1 _]. apply lookup_lt_Some in H1. lia.
    - intros t r Hr. apply in_app_iff in Hr as [Hr|[[=]|[]]]. apply lookup_app_l_Some. now apply C12.
    - apply rt_obs; [exact C13| |].
      + intros t r Hr. apply in_app_iff in Hr as [Hr|[[=]|[]]]. destruct (C13 tr [] ltac:(now rewrite app_nil_r)) as (ds1 & ds2 & -> & H1 & _). rewrite map_app, in_app_iff. eauto.
      + intros x Hx. destruct (C10 x Hx) as [H1 _]. apply lookup_lt_Some in H1. rewrite Ecs, app_length. lia.
  Qed.

  (** ** The random source only goes forward *)
  Notation fwd := (@forward S I _).
  Lemma fwd_bind {A B} (p : prog W A) (k : A -> prog W B) : fwd p -> (forall a, fwd (k a)) -> fwd (bind p k).
  Proof. intros H Hk. induction p as [b|X f q IH]; cbn [forward bind] in *; [auto|]. intros w. destruct (H w). auto. Qed.
  Lemma fwd_bindR {A B} (p : prog W (res A)) (k : A -> prog W (res B)) : fwd p -> (forall a, fwd (k a)) -> fwd (bindR p k).
  Proof. intros H Hk. unfold bindR. apply fwd_bind; [exact H|]. intros [a|x|]; [apply Hk|exact Logic.I..]. Qed.
  Lemma fwd_map_err {A} h (p : prog W (res A)) : fwd p -> fwd (map_err h p).
  Proof. intros H. unfold map_err. apply fwd_bind; [exact H|]. intros a. exact Logic.I. Qed.
  Lemma fwd_act {A} (f : W -> A * W) : (forall w, (w_draws w <= w_draws (snd (f w)))%nat) -> fwd (act f).
  Proof. intros H w. split; [apply H|exact Logic.I]. Qed.
  Lemma fwd_io {A} (p : prog S A) : fwd (on_io p : prog W A).
  Proof. induction p as [b|X f q IH]; cbn [forward on_io]; [exact Logic.I|]. intros w. destruct (f (w_io w)). cbn. auto. Qed.
  Lemma fwd_lift {A} (r : res A) : fwd (lift r : prog W (res A)).
  Proof. exact Logic.I. Qed.
  Lemma fwd_get_bytes n : fwd (get_bytes e n : prog W _).
  Proof. apply fwd_act. intros w. cbn. lia. Qed.
  Lemma fwd_aes_enc kek pt aad : fwd (aes_enc e kek pt aad : prog W _).
  Proof.
    unfold aes_enc. apply fwd_bindR; [apply fwd_get_bytes|intros key]. apply fwd_bindR; [apply fwd_get_bytes|intros nonce].
    apply fwd_bindR; [apply fwd_lift|intros ct]. apply fwd_bindR; [apply fwd_lift|intros wk]. apply fwd_bind; [apply fwd_act; intros w; cbn; lia|]. intros. exact Logic.I.
  Qed.
  Lemma fwd_decrypt_json {A} kek (dec : json -> option A) aad wk ct : fwd (decrypt_json (aes_cryptor e kek) dec aad wk ct : prog W _).
  Proof.
    unfold decrypt_json. apply fwd_bindR.
    - cbn [c_dec aes_cryptor]. unfold aes_dec. apply fwd_act. intros w. destruct (_ && _); cbn; lia.
    - intros pt. destruct (unmarshal dec pt); exact Logic.I.
  Qed.
  Context (Hfwd : forall tok, fwd (idp tok)).
  Lemma fwd_verify tok need : fwd (verify_access idp tok need).
  Proof. unfold verify_access. apply fwd_bind; [apply Hfwd|]. intros [i|x|]; [|exact Logic.I..]. destruct (scope_contains _ _); exact Logic.I. Qed.
  Lemma fwd_get_access oid : fwd (get_sealed_access io oid : prog W _).
  Proof. unfold get_sealed_access. apply fwd_bindR; [apply fwd_map_err, fwd_io|]. intros b. destruct (unmarshal _ b); exact Logic.I. Qed.
  Lemma fwd_get_object oid : fwd (get_sealed_object io oid : prog W _).
  Proof. unfold get_sealed_object. apply fwd_bindR; [apply fwd_map_err, fwd_io|]. intros b. destruct (unmarshal _ b); exact Logic.I. Qed.
  Lemma fwd_authorize i need sa : fwd (authorize_access ac i need sa : prog W _).
  Proof. unfold authorize_access, access_unseal. apply fwd_bindR; [apply fwd_decrypt_json|]. intros a. destruct (authorized _ _ _); exact Logic.I. Qed.
  Lemma fwd_object_seal o oid : fwd (object_seal oc o oid : prog W _).
  Proof. unfold object_seal, encrypt_json. cbn [c_enc aes_cryptor]. apply fwd_bindR; [apply fwd_aes_enc|]. intros [wk ct]. exact Logic.I. Qed.
  Lemma fwd_access_seal a oid : fwd (access_seal ac a oid : prog W _).
  Proof. unfold access_seal, encrypt_json. cbn [c_enc aes_cryptor]. apply fwd_bindR; [apply fwd_aes_enc|]. intros [wk ct]. exact Logic.I. Qed.
  Lemma fwd_put_object so b : fwd (put_sealed_object io so b : prog W _).
  Proof. unfold put_sealed_object. destruct b; apply fwd_map_err, fwd_io. Qed.
  Lemma fwd_put_access sa b : fwd (put_sealed_access io sa b : prog W _).
  Proof. unfold put_sealed_access. destruct b; apply fwd_map_err, fwd_io. Qed.
  Lemma fwd_call c : fwd (d1_aes e io idp d c).
  Proof.
    unfold d1_aes. destruct c; cbn [d1_do]; apply fwd_bind; try (intros; exact Logic.I).
    - unfold d1_encrypt, new_v4. apply fwd_bindR; [apply fwd_verify|intros i]. apply fwd_bindR; [apply fwd_bindR; [apply fwd_get_bytes|intros; exact Logic.I]|intros oid].
      apply fwd_bindR; [apply fwd_object_seal|intros [dek so]]. apply fwd_bindR; [apply fwd_lift|intros g]. apply fwd_bindR; [apply fwd_access_seal|intros sa].
      apply fwd_bindR; [apply fwd_put_object|intros _]. apply fwd_bindR; [apply fwd_put_access|intros _]. exact Logic.I.
    - unfold d1_update. apply fwd_bindR; [apply fwd_verify|intros i]. apply fwd_bindR; [apply fwd_get_access|intros sa]. apply fwd_bindR; [apply fwd_authorize|intros a].
      apply fwd_bindR; [apply fwd_object_seal|intros [dek so]]. apply fwd_bindR; [apply fwd_access_seal|intros sa'].
      apply fwd_bindR; [apply fwd_put_object|intros _]. apply fwd_bindR; [apply fwd_put_access|intros _]. exact Logic.I.
    - unfold d1_decrypt. apply fwd_bindR; [apply fwd_verify|intros i]. apply fwd_bindR; [apply fwd_get_access|intros sa]. apply fwd_bindR; [apply fwd_authorize|intros a].
      apply fwd_bindR; [apply fwd_get_object|intros so]. unfold object_unseal. apply fwd_bindR; [apply fwd_decrypt_json|intros pt]. exact Logic.I.
    - unfold d1_delete. apply fwd_bindR; [apply fwd_verify|intros i]. apply fwd_bind; [apply fwd_get_access|intros r].
      destruct r as [sa|x|]; [|destruct x; exact Logic.I|exact Logic.I].
      apply fwd_bindR; [apply fwd_authorize|intros a]. apply fwd_bindR; [apply fwd_io|intros _]. apply fwd_bindR; [apply fwd_io|intros _]. exact Logic.I.
    - unfold d1_get_access_groups. apply fwd_bindR; [apply fwd_verify|intros i]. apply fwd_bindR; [apply fwd_get_access|intros sa]. apply fwd_bindR; [apply fwd_authorize|intros a]. exact Logic.I.
    - unfold d1_add_groups. apply fwd_bindR; [apply fwd_verify|intros i]. apply fwd_bindR; [apply fwd_get_access|intros sa]. apply fwd_bindR; [apply fwd_authorize|intros a].
      apply fwd_bindR; [apply fwd_lift|intros g]. apply fwd_bindR; [apply fwd_access_seal|intros sa']. apply fwd_put_access.
    - unfold d1_remove_groups. apply fwd_bindR; [apply fwd_verify|intros i]. apply fwd_bindR; [apply fwd_get_access|intros sa]. apply fwd_bindR; [apply fwd_authorize|intros a].
      apply fwd_bindR; [apply fwd_access_seal|intros sa']. apply fwd_put_access.
    - unfold d1_authorize. apply fwd_bindR; [apply fwd_verify|intros i]. apply fwd_bindR; [apply fwd_get_access|intros sa]. apply fwd_bindR; [apply fwd_authorize|intros a]. exact Logic.I.
    - unfold d1_create_token. apply fwd_bind; [unfold new_token; apply fwd_bind; [apply fwd_act; intros w; cbn; lia|intros; exact Logic.I]|intros t].
      unfold token_seal. destruct (enc_time _); [|exact Logic.I]. unfold encrypt_json. cbn [c_enc aes_cryptor]. apply fwd_bindR; [apply fwd_aes_enc|intros [wk ct]; exact Logic.I].
    - unfold d1_get_token_contents. apply fwd_bindR; [|intros; exact Logic.I]. unfold token_unseal. apply fwd_bind; [apply fwd_act; intros w; cbn; lia|intros now].
      destruct (time_before _ _); [exact Logic.I|]. destruct (enc_time _); [|exact Logic.I]. apply fwd_bindR; [apply fwd_decrypt_json|intros; exact Logic.I].
  Qed.
  Lemma conc_forward pool w tr pool' w' : d1_conc e v io idp d pool w tr pool' w' -> (forall t p, pool !! t = Some p -> fwd p) -> (w_draws w <= w_draws w')%nat.
  Proof.
    induction 1 as [pool w|pool w w1 tr pool' w' HK _ IH|c pool w tr pool' w' _ IH|t X f k pool w tr pool' w' Hp _ IH|t r pool w tr pool' w' Hp _ IH]; intros HP.
    - lia.
    - destruct HK as (_ & HK & _). specialize (IH HP). lia.
    - apply IH. intros t p Hp. apply lookup_app_Some in Hp as [Hp|[_ Hp]]; [now apply (HP t)|]. apply list_lookup_singleton_Some in Hp as [_ <-]. apply fwd_call.
    - destruct (HP t _ Hp w) as [H1 H2]. specialize (IH ltac:(intros t' p Hp'; destruct (decide (t' = t)) as [->|Hne];
        [rewrite list_lookup_insert in Hp' by (eapply lookup_lt_Some; exact Hp); injection Hp' as <-; exact H2|rewrite list_lookup_insert_ne in Hp' by congruence; now apply (HP t')])). lia.
    - auto.
  Qed.

  Lemma conc_linearizes m0 pool w tr pool' w' : d1_conc e v io idp d pool w tr pool' w' -> forall tr0 m ds gh, Core m0 tr0 pool w m ds gh -> (forall t, fin pool gh t) ->
    (forall t p, pool !! t = Some p -> fwd p) -> (w_draws w' <= n1)%nat ->
    ids_wf (tr0 ++ tr) -> orderly (tr0 ++ tr) -> no_guess e n0 n1 (tr0 ++ tr) -> exists ds' m', d1_linearizes e who m0 (tr0 ++ tr) ds' m'.
  Proof.
    induction 1 as [pool w|pool w w1 tr pool' w' HK _ IH|c pool w tr pool' w' Hrest IH|t X f k pool w tr pool' w' Hp Hrest IH|t r pool w tr pool' w' Hp _ IH]; intros tr0 m ds gh HC HF HP HB Hwf Ho Hg.
    - rewrite app_nil_r. destruct HC as [C1 C2 C3 C4 C5 C6 C7 C8 C9 C10 C11 C12 C13]. exists ds, m. split; [exact C8|]. split; [exact C9|]. split; [|split; [|exact C13]].
      + intros x Hx. rewrite nth_error_is_lookup. now apply C10.
      + intros t r Hr. apply C12 in Hr. pose proof (lookup_lt_Some _ _ _ Hr) as Lt. destruct (lookup_lt_is_Some_2 gh t ltac:(lia)) as [g Eg].
        destruct (HF t r g Hr Eg) as [_ E]. specialize (C11 t g Eg). now rewrite E in C11.
    - eapply (IH tr0 m ds gh); eauto. eapply core_env; eauto.
    - assert (HP' : forall t p, (pool ++ [d1_aes e io idp d c]) !! t = Some p -> fwd p).
      { intros t p Hp. apply lookup_app_Some in Hp as [Hp|[_ Hp]]; [now apply (HP t)|]. apply list_lookup_singleton_Some in Hp as [_ <-]. apply fwd_call. }
      pose proof (conc_forward _ _ _ _ _ Hrest HP') as HB'.
      destruct (core_call m0 tr0 pool w m ds gh c HC HF) as (gh1 & HC1 & HF1).
      + intros oid Hoid. apply (Hwf c); [|exact Hoid]. rewrite calls_app, in_app_iff. right. now left.
      + intros t c'. apply (Ho tr0 c tr eq_refl).
      + lia.
      + intros i b. apply (Hg tr0 c tr i b eq_refl).
      + destruct (core_settle _ _ _ _ _ _ _ _ HC1 HF1) as (ds2 & gh2 & HC2 & HF2).
        replace (tr0 ++ DCall c :: tr) with ((tr0 ++ [DCall c]) ++ tr) in * by now rewrite <- app_assoc. eapply IH; eauto.
    - assert (HP' : forall t' p, <[t := k (fst (f w))]> pool !! t' = Some p -> fwd p).
      { intros t' p Hp'. destruct (decide (t' = t)) as [->|Hne]; [|rewrite list_lookup_insert_ne in Hp' by congruence; now apply (HP t')].
        rewrite list_lookup_insert in Hp' by (eapply lookup_lt_Some; exact Hp). injection Hp' as <-. apply (HP t _ Hp w). }
      pose proof (conc_forward _ _ _ _ _ Hrest HP') as HB'.
      destruct (core_step _ _ _ _ _ _ _ _ _ _ _ HC HF Hp ltac:(lia)) as (m1 & ds1 & gh1 & HC1 & HF1). destruct (core_settle _ _ _ _ _ _ _ _ HC1 HF1) as (ds2 & gh2 & HC2 & HF2). eapply IH; eauto.
    - pose proof (core_reply _ _ _ _ _ _ _ _ _ HC HF Hp) as HC1.
      replace (tr0 ++ DReply t r :: tr) with ((tr0 ++ [DReply t r]) ++ tr) in * by now rewrite <- app_assoc. eapply IH; eauto.
  Qed.
End Conc.

Lemma objects_linearize {S I} (e : env) (v : view S) (io : provider S) (idp : bytes -> prog (world S I) (res identity)) (who : bytes -> res identity -> Prop) (d : d1)
    (w : world S I) tr pool' w' :
  cell_storage v io -> (forall tok, answers v (idp tok) (who tok)) -> (forall tok, forward (idp tok)) ->
  fresh v all_ids w -> d1_conc e v io idp d [] w tr pool' w' ->
  ids_wf tr -> orderly tr -> ids_differ e (w_draws w) (w_draws w') -> no_guess e (w_draws w) (w_draws w') tr ->
  exists ds m', d1_linearizes e who ∅ tr ds m'.
Proof.
  intros Hio Hidp Hf [Hi Hw] Hr Hwf Ho Hids Hg.
  assert (HE : forall oid, v_map v (w_io w) oid SO = None /\ v_map v (w_io w) oid SA = None) by (intros oid; split; apply Hw; auto).
  apply (conc_linearizes e v io Hio idp who Hidp d (w_draws w) (w_draws w') Hids Hf ∅ [] w tr pool' w' Hr [] ∅ [] []); auto.
  - constructor; try (intros; discriminate); auto.
    + constructor; [exact Hi|lia|..].
      * intros oid. rewrite lookup_empty. apply HE.
      * intros. apply HE.
    + intros oid _. rewrite lookup_empty. apply HE.
    + constructor.
    + constructor.
    + intros x [].
    + intros t r [].
    + intros tr1 tr2 E. exists [], []. symmetry in E. apply app_eq_nil in E as [-> ->]. split; [reflexivity|]. split; intros t; [intros r []|intros []].
  - intros t r g Hr'. discriminate.
  - intros t p Hp. discriminate.
Qed.
