(** Concurrent Adds and Searches over storage with atomic operations. *)
From Coq Require Import ZifyN ZifyNat.
From stdpp Require Import gmap.
From Verif Require Import Bytes Go Json JsonProofs Types TypesProofs World Logic Cryptor CryptorProofs Io IoSpec IoProofs Id Data D1 D1Proofs Spec SpecProofs
  Index IndexSpec IndexConcSpec IndexProofs IndexRefine IndexHist IndexFacts.
Local Open Scope bool_scope.
Local Open Scope N_scope.

(** ** Steps that leave the stored nodes alone *)
Section Calm.
  Context {S I : Type} (v : view S).
  Notation W := (world S I).
  Fixpoint calm {B} (p : prog W B) (Q : B -> Prop) : Prop :=
    match p with
    | Ret b => Q b
    | Step f k => forall w, v_inv v (w_io w) ->
        v_inv v (w_io (snd (f w))) /\ seq (v_map v (w_io (snd (f w)))) (v_map v (w_io w)) /\ calm (k (fst (f w))) Q
    end.
  Lemma calm_reads {B} (p : prog W B) : only_reads v p -> calm p (fun _ => True).
  Proof. induction p as [b|X f k IH]; cbn [only_reads calm]; [auto|]. intros H w Hw. destruct (H w Hw) as (H1 & H2 & H3). auto. Qed.
  Lemma calm_mono {B} (p : prog W B) (Q Q' : B -> Prop) : (forall b, Q b -> Q' b) -> calm p Q -> calm p Q'.
  Proof. intros HQ. induction p as [b|X f k IH]; cbn [calm]; [auto|]. intros H w Hw. destruct (H w Hw) as (H1 & H2 & H3). auto. Qed.
  Lemma calm_bind {B C} (p : prog W B) (k : B -> prog W C) Q : calm p (fun b => calm (k b) Q) -> calm (bind p k) Q.
  Proof. induction p as [b|X f c IH]; cbn [calm bind]; [auto|]. intros H w Hw. destruct (H w Hw) as (H1 & H2 & H3). auto. Qed.
  Lemma calm_bindR {B C} (p : prog W (res B)) (k : B -> prog W (res C)) Q :
    calm p (fun r => match r with Ok a => calm (k a) Q | Err x => Q (Err x) | Panic => Q Panic end) -> calm (bindR p k) Q.
  Proof. intros H. unfold bindR. apply calm_bind. eapply calm_mono; [|exact H]. intros [a|x|]; cbn [calm]; auto. Qed.
  Lemma calm_act {B} (f : W -> B * W) (Q : B -> Prop) : (forall w, w_io (snd (f w)) = w_io w /\ Q (fst (f w))) -> calm (act f) Q.
  Proof. intros H w Hw. destruct (H w) as [-> HQ]. split; [exact Hw|]. split; [apply seq_refl|exact HQ]. Qed.
  Lemma calm_get_bytes e n : calm (get_bytes e n) (fun r => (exists b, r = Ok b /\ length b = N.to_nat n) \/ r = Err ERandom).
  Proof.
    unfold get_bytes. apply calm_act. intros w. split; [reflexivity|]. cbn [fst]. destruct (draw_cases e (w_draws w) n) as [(b & E & L)|E]; rewrite E; eauto.
  Qed.
  Lemma calm_aes_enc e kek pt aad : calm (aes_enc e kek pt aad) (fun r => (exists wk ct, r = Ok (wk, ct) /\ aes_open kek aad wk ct = Ok pt) \/ r = Err ERandom).
  Proof.
    unfold aes_enc. apply calm_bindR. eapply calm_mono; [|apply calm_get_bytes]. intros r [(key & -> & Lk)| ->]; [|auto].
    apply calm_bindR. eapply calm_mono; [|apply calm_get_bytes]. intros r [(nonce & -> & Ln)| ->]; [|auto].
    destruct (aes_seal_open kek pt aad key nonce Lk Ln) as (wk & ct & Hs & Ho & _). unfold aes_seal in Hs. unfold lift.
    destruct (Gcm.aes_gcm_encrypt pt aad key nonce) as [ct'| |] eqn:Ec; cbn [res_bind] in Hs; try discriminate.
    destruct (Kwp.aes_kwp_wrap kek key) as [wk'| |] eqn:Ew; cbn [res_bind] in Hs; try discriminate.
    injection Hs as -> ->. apply calm_bindR. cbn [calm]. apply calm_bindR. cbn [calm]. apply calm_bind, calm_act. intros w. split; [reflexivity|].
    cbn [calm]. left. eauto.
  Qed.
  Lemma calm_decrypt_json {A} e kek (dec : json -> option A) aad wk ct : calm (decrypt_json (aes_cryptor e kek) dec aad wk ct) (fun r => r = open_json kek dec aad wk ct).
  Proof.
    unfold decrypt_json, open_json. apply calm_bindR. cbn [c_dec aes_cryptor]. unfold aes_dec. apply calm_act. intros w.
    split; [destruct (_ && _); reflexivity|]. cbn [fst]. destruct (aes_open _ _ _ _) as [pt|x|]; cbn [res_bind]; try reflexivity.
    destruct (unmarshal dec pt); reflexivity.
  Qed.
  Lemma calm_node_seal e kek n label : n_next n < 2 ^ 64 ->
    calm (node_seal (aes_cryptor e kek) n label) (fun r => (exists sn, r = Ok sn /\ node_open kek label (print (enc_sealed_node sn)) = Ok (mkNode (as_text (n_id n)) (n_next n))) \/ r = Err ERandom).
  Proof.
    intros Hn. unfold node_seal, encrypt_json. apply calm_bindR. cbn [c_enc aes_cryptor]. eapply calm_mono; [|apply calm_aes_enc].
    intros r [(wk & ct & -> & Ho)| ->]; [|now right]. left. eexists. split; [reflexivity|]. now apply node_reopen.
  Qed.
End Calm.

(** ** Nodes met so far *)
Inductive seg (g : N -> option node) : N -> list (N * bytes) -> N -> Prop :=
| seg_nil c : seg g c [] c
| seg_cons c n ps z : g c = Some n -> seg g (n_next n) ps z -> seg g c ((c, n_id n) :: ps) z.
Lemma seg_snoc g c ps z n : seg g c ps z -> g z = Some n -> seg g c (ps ++ [(z, n_id n)]) (n_next n).
Proof. intros H. induction H as [c|c n' ps z E H IH]; intros Hn; cbn [app]; constructor; auto. constructor. Qed.
Lemma seg_grow (g g' : N -> option node) c ps z : (forall k n, g k = Some n -> g' k = Some n) -> seg g c ps z -> seg g' c ps z.
Proof. intros Hg H. induction H; constructor; auto. Qed.
Lemma seg_path g c ps z : seg g c ps z -> g z = None -> path g c ps z.
Proof. intros H E. induction H; constructor; auto. Qed.

(** ** Counting *)
Fixpoint adds_at (n : nat) (cs : list ix_call) : list nat :=
  match cs with
  | [] => []
  | IAdd _ _ _ :: cs => n :: adds_at (Datatypes.S n) cs
  | _ :: cs => adds_at (Datatypes.S n) cs
  end.
Lemma adds_at_length cs : forall n, length (adds_at n cs) = count_adds cs.
Proof. induction cs as [|c cs IH]; intros n; [reflexivity|]. destruct c; cbn [adds_at]; unfold count_adds; cbn [List.filter length]; now rewrite IH. Qed.
Lemma adds_at_in cs : forall n i t kw y, nth_error cs i = Some (IAdd t kw y) -> In (n + i)%nat (adds_at n cs).
Proof.
  induction cs as [|c cs IH]; intros n [|i] t kw y H; try discriminate.
  - injection H as ->. cbn. left. lia.
  - cbn [nth_error] in H. replace (n + Datatypes.S i)%nat with (Datatypes.S n + i)%nat by lia. destruct c; cbn [adds_at]; [right|..]; eapply IH; eauto.
Qed.
Lemma did_adds (calls : list ix_call) (ds : list ix_did) : NoDup (map d_call ds) -> (forall d, In d ds -> nth_error calls (d_call d) = Some (d_what d)) ->
  (count_adds (map d_what ds) <= count_adds calls)%nat.
Proof.
  intros Hn Hc. rewrite <- (adds_at_length calls 0).
  set (isadd := fun d => match d_what d with IAdd _ _ _ => true | _ => false end).
  assert (L : count_adds (map d_what ds) = length (map d_call (List.filter isadd ds))).
  { rewrite map_length. unfold count_adds. clear. induction ds as [|d ds IH]; [reflexivity|]. cbn [map List.filter]. unfold isadd at 1. destruct (d_what d); cbn [length]; now rewrite IH. }
  rewrite L. apply NoDup_incl_length.
  - clear - Hn. induction ds as [|d ds IH]; [constructor|]. cbn [map] in Hn. apply List.NoDup_cons_iff in Hn as [H1 H2].
    cbn [List.filter]. destruct (isadd d); [|auto]. cbn [map]. apply List.NoDup_cons_iff. split; [|auto]. intros H. apply H1.
    apply in_map_iff in H as (x & <- & Hx). apply filter_In in Hx as [Hx _]. now apply in_map.
  - intros i Hi. apply in_map_iff in Hi as (d & <- & Hd). apply filter_In in Hd as [Hd Ha]. unfold isadd in Ha. specialize (Hc d Hd).
    destruct (d_what d) as [t kw y| |] eqn:E; try discriminate. exact (adds_at_in calls 0 (d_call d) t kw y Hc).
Qed.
Lemma nodup_snoc {A} (l : list A) x : List.NoDup l -> ~ In x l -> List.NoDup (l ++ [x]).
Proof. intros H1 H2. apply (List.NoDup_Add (List.Add_app x l [])). rewrite app_nil_r. auto. Qed.
Lemma count_snoc cs c : N.of_nat (count_adds (cs ++ [c])) = N.of_nat (count_adds cs) + is_add c.
Proof. unfold count_adds. rewrite filter_app, app_length. destruct c; cbn [List.filter length is_add]; lia. Qed.

Lemma serial_snoc m ds m1 d m2 : ix_serial m ds m1 -> ix_does (d_what d) (d_reply d) m1 m2 -> ix_serial m (ds ++ [d]) m2.
Proof.
  intros H Hd. induction H as [m m1 Hs|m d' m' ds m1 Hd' H IH]; cbn [app].
  - econstructor; [|constructor; intros kw; reflexivity]. destruct (d_what d) as [t kw y|t kw|t kw y]; cbn [ix_does] in *; rewrite (Hs kw) in Hd.
    + destruct Hd as [-> [H1 H2]]. split; [reflexivity|]. split; [exact H1|]. intros kw' Hne. rewrite H2, (Hs kw') by exact Hne. reflexivity.
    + destruct Hd as [-> H1]. split; [reflexivity|]. intros kw'. now rewrite H1, (Hs kw').
    + destruct Hd as [-> [H1 H2]]. split; [reflexivity|]. split; [exact H1|]. intros kw' Hne. rewrite H2, (Hs kw') by exact Hne. reflexivity.
  - econstructor; [exact Hd'|]. auto.
Qed.

Section Conc.
  Context {S I : Type} (e : env) (v : view S) (io : provider S) (Hat : atomic_get_put v io).
  Notation W := (world S I).
  Context (idp : bytes -> prog W (res identity)) (Hidp : forall tok, only_reads v (idp tok)).
  Context (iek : bytes) (Hiek : blen iek = 32) (K : list bytes) (M : N) (HM : M < 2 ^ 64).
  Context (Hdiff : labels_differ iek K M) (fuel : nat) (Hfuel : M < N.of_nat fuel).
  Context (m0 : index) (b0 : N) (calls : list ix_call).
  Context (HK : forall c, In c calls -> In (ix_keyword c) K) (Hb0 : b0 + N.of_nat (count_adds calls) <= M).
  Notation SN := DataTypeSealedNode.
  Notation tt2 := (fun _ _ : bytes => True).
  Notation state := (@state S I v iek K M tt2).
  Notation clean := (clean M).

  (** ** Ghost state *)
  Record ghost := mkGhost { g_ds : list ix_did; g_f : slots; g_m : index }.
  Definition bound (g : ghost) : N := b0 + N.of_nat (count_adds (map d_what (g_ds g))).
  Definition J (g : ghost) (w : W) : Prop :=
    state (bound g) (g_f g) (g_m g) w /\ (forall kw, clean (g_f g) kw) /\ ix_serial m0 (g_ds g) (g_m g) /\
    NoDup (map d_call (g_ds g)) /\ (forall d, In d (g_ds g) -> nth_error calls (d_call d) = Some (d_what d)).
  Definition grows (f f' : slots) : Prop := forall kw c n, f kw c = Some n -> f' kw c = Some n.
  (** What others may do meanwhile. *)
  Definition ext (t : nat) (g g' : ghost) : Prop :=
    (exists l, g_ds g' = g_ds g ++ l /\ ~ In t (map d_call l)) /\ grows (g_f g) (g_f g').
  (** What the call itself does in a step. *)
  Definition does (t : nat) (c : ix_call) (g g' : ghost) : Prop :=
    g' = g \/ exists rep, g_ds g' = g_ds g ++ [mkDid t c rep] /\ grows (g_f g) (g_f g').
  Lemma ext_refl t g : ext t g g.
  Proof. split; [exists []; rewrite app_nil_r; auto|intros ? ? ? H; exact H]. Qed.
  Lemma ext_trans t g1 g2 g3 : ext t g1 g2 -> ext t g2 g3 -> ext t g1 g3.
  Proof.
    intros [(l1 & E1 & N1) G1] [(l2 & E2 & N2) G2]. split; [|intros ? ? ? H; auto].
    exists (l1 ++ l2). split; [rewrite E2, E1; now rewrite app_assoc|]. rewrite map_app. intros H. apply in_app_or in H as [H|H]; auto.
  Qed.
  Lemma does_ext t t' c g g' : t' <> t -> does t c g g' -> ext t' g g'.
  Proof.
    intros Hne [->|(rep & E & G)]; [apply ext_refl|]. split; [|exact G]. exists [mkDid t c rep]. split; [exact E|]. cbn. intros [H|[]]. congruence.
  Qed.
  Lemma J_same g (w w' : W) : J g w -> v_inv v (w_io w') -> (forall id, v_map v (w_io w') id SN = v_map v (w_io w) id SN) -> J g w'.
  Proof.
    intros [H1 H2] Hi He. split; [|exact H2]. eapply elsewhere_state; [exact H1|]. split; assumption.
  Qed.
  Lemma J_bound g w : J g w -> bound g <= M.
  Proof. intros (_ & _ & _ & H1 & H2). unfold bound. pose proof (did_adds calls (g_ds g) H1 H2). lia. Qed.
  Lemma J_room g w t tok kw y : J g w -> nth_error calls t = Some (IAdd tok kw y) -> ~ In t (map d_call (g_ds g)) -> bound g + 1 <= M.
  Proof.
    intros (_ & _ & _ & H1 & H2) Hc Ht. unfold bound. pose proof (did_adds calls (g_ds g ++ [mkDid t (IAdd tok kw y) IRUnit])) as H.
    rewrite !map_app in H. cbn [map d_call d_what] in H.
    assert (A : NoDup (map d_call (g_ds g) ++ [t])).
    { now apply nodup_snoc. }
    specialize (H A). assert (L := count_snoc (map d_what (g_ds g)) (IAdd tok kw y)). cbn [is_add] in L.
    assert (B : forall d, In d (g_ds g ++ [mkDid t (IAdd tok kw y) IRUnit]) -> nth_error calls (d_call d) = Some (d_what d)).
    { intros d Hd. apply in_app_or in Hd as [Hd|[<-|[]]]; [auto|exact Hc]. }
    specialize (H B). lia.
  Qed.

  (** ** Programs among others *)
  Section Thread.
    Context (t : nat) (c : ix_call) (Hc : nth_error calls t = Some c).
    Fixpoint lw {B} (p : prog W B) (Q : B -> ghost -> Prop) (g : ghost) : Prop :=
      match p with
      | Ret b => Q b g
      | Step f k => forall g1 w, ext t g g1 -> J g1 w ->
          exists g2, does t c g1 g2 /\ J g2 (snd (f w)) /\ lw (k (fst (f w))) Q g2
      end.
    Lemma lw_ext {B} (p : prog W B) (Q : B -> ghost -> Prop) g g' : (forall b g1 g2, Q b g1 -> ext t g1 g2 -> Q b g2) ->
      lw p Q g -> ext t g g' -> lw p Q g'.
    Proof.
      intros HQ. destruct p as [b|X f k]; cbn [lw]; [eauto|]. intros H He g1 w He1 HJ. apply (H g1 w); [eapply ext_trans; eauto|exact HJ].
    Qed.
    Lemma lw_mono {B} (p : prog W B) (Q Q' : B -> ghost -> Prop) g : (forall b g', Q b g' -> Q' b g') -> lw p Q g -> lw p Q' g.
    Proof.
      intros HQ. revert g. induction p as [b|X f k IH]; cbn [lw]; intros g H; [auto|]. intros g1 w He HJ. destruct (H g1 w He HJ) as (g2 & H1 & H2 & H3).
      exists g2. auto.
    Qed.
    Lemma lw_bind {B C} (p : prog W B) (k : B -> prog W C) Q g : lw p (fun b g' => lw (k b) Q g') g -> lw (bind p k) Q g.
    Proof.
      revert g. induction p as [b|X f k' IH]; cbn [lw bind]; intros g H; [auto|]. intros g1 w He HJ. destruct (H g1 w He HJ) as (g2 & H1 & H2 & H3).
      exists g2. auto.
    Qed.
    Lemma lw_bindR {B C} (p : prog W (res B)) (k : B -> prog W (res C)) Q g :
      lw p (fun r g' => match r with Ok a => lw (k a) Q g' | Err x => Q (Err x) g' | Panic => Q Panic g' end) g -> lw (bindR p k) Q g.
    Proof. intros H. unfold bindR. apply lw_bind. eapply lw_mono; [|exact H]. intros [a|x|] g'; cbn [lw]; auto. Qed.
    Lemma lw_map_err {B} h (p : prog W (res B)) (Q : res B -> ghost -> Prop) g :
      lw p (fun r g' => Q (match r with Ok a => Ok a | Err x => Err (h x) | Panic => Panic end) g') g -> lw (map_err h p) Q g.
    Proof. intros H. unfold map_err. apply lw_bind. eapply lw_mono; [|exact H]. intros r g'; cbn [lw]; auto. Qed.
    Lemma lw_calm {B} (p : prog W B) (P : B -> Prop) (Q : B -> ghost -> Prop) g : calm v p P ->
      (forall b g', P b -> ext t g g' -> Q b g') -> lw p Q g.
    Proof.
      revert g. induction p as [b|X f k IH]; cbn [lw calm]; intros g H HQ; [apply HQ; [exact H|apply ext_refl]|].
      intros g1 w He HJ. assert (Hi : v_inv v (w_io w)) by (destruct HJ as (((st & [Hi _] & _) & _) & _); exact Hi).
      destruct (H w Hi) as (H1 & H2 & H3). exists g1. split; [now left|]. split; [eapply J_same; [exact HJ|exact H1|auto]|].
      apply IH; [exact H3|]. intros b g' Hb He'. apply HQ; [exact Hb|]. eapply ext_trans; eauto.
    Qed.

    Section Keyword.
      Context (kw : bytes) (Hkw : In kw K).
      Notation lab := (lab iek kw).
      Notation tk := (tkey iek kw).
      Notation kek := (ckey iek kw).
      Lemma lw_get k (Q : res bytes -> ghost -> Prop) g : k <= M ->
        (forall g1 w, ext t g g1 -> J g1 w -> g_f g1 kw k = None -> exists g2, does t c g1 g2 /\ J g2 w /\ Q (Err EIoNotFound) g2) ->
        (forall g1 w n b, ext t g g1 -> J g1 w -> g_f g1 kw k = Some n -> node_open kek (lab k) b = Ok n -> Q (Ok b) g1) ->
        lw (on_io (io_get io (lab k) SN)) Q g.
      Proof.
        intros Hk HN HS. pose proof (proj1 Hat (lab k) SN ltac:(reflexivity)) as HA. unfold atomic in HA.
        destruct (io_get io (lab k) SN) as [r|X f q]; [destruct HA|]. cbn [on_io lw]. intros g1 w He HJ.
        destruct HJ as (((st & [Hi Hs] & Hsees) & Hst) & HJ'). destruct (HA (w_io w) Hi) as (A1 & A2 & A3).
        assert (HJ : J g1 w) by (split; [split; [exists st; split; [split; assumption|exact Hsees]|exact Hst]|exact HJ']).
        destruct (f (w_io w)) as [x s'] eqn:Ef. cbn [fst snd] in *. rewrite A2. cbn [on_io].
        assert (HJs : forall g2, J g2 w -> J g2 (set_io w s')).
        { intros g2 H. eapply J_same; [exact H|exact A1|]. intros id. cbn [w_io set_io]. rewrite (A3 id SN). reflexivity. }
        unfold map_get. cbn [fst]. rewrite (Hs (lab k) SN). pose proof (Hsees kw k Hkw Hk) as Hlook.
        destruct (g_f g1 kw k) as [n|] eqn:Eg.
        - destruct Hlook as (b & -> & Ho). exists g1. split; [now left|]. split; [auto|]. cbn [lw]. eauto.
        - rewrite Hlook. destruct (HN g1 w He HJ Eg) as (g2 & H1 & H2 & H3). exists g2. split; [exact H1|]. split; [auto|exact H3].
      Qed.
      Lemma lw_put k n d (Q : res unit -> ghost -> Prop) g : k <= M -> d <> [] -> node_open kek (lab k) d = Ok n ->
        (forall g1 w w', ext t g g1 -> J g1 w -> g_f g1 kw k = None -> R v iek K M (set_slot (g_f g1) kw k (Some n)) w' ->
          exists g2, does t c g1 g2 /\ J g2 w' /\ Q (Ok tt) g2) ->
        (forall g1, ext t g g1 -> Q (Err EIoAlreadyExists) g1) ->
        lw (on_io (io_put io (lab k) SN d)) Q g.
      Proof.
        intros Hk Hd Ho HN HS. pose proof (proj2 Hat (lab k) SN d ltac:(reflexivity) Hd) as HA. unfold atomic in HA.
        destruct (io_put io (lab k) SN d) as [r|X f q]; [destruct HA|]. cbn [on_io lw]. intros g1 w He HJ0. pose proof HJ0 as HJ.
        destruct HJ as (((st & [Hi Hs] & Hsees) & Hst) & HJ'). destruct (HA (w_io w) Hi) as (A1 & A2 & A3).
        destruct (f (w_io w)) as [x s'] eqn:Ef. cbn [fst snd] in *. rewrite A2. cbn [on_io].
        unfold map_put in A3 |- *. rewrite (Hs (lab k) SN) in A3 |- *. pose proof (Hsees kw k Hkw Hk) as Hlook.
        destruct (g_f g1 kw k) as [n'|] eqn:Eg.
        - destruct Hlook as (b & Eb & _). rewrite Eb in A3 |- *. cbn [fst snd] in *. exists g1. split; [now left|]. split; [|cbn [lw]; auto].
          eapply J_same; [exact HJ0|exact A1|]. intros id. cbn [w_io set_io]. rewrite (A3 id SN). reflexivity.
        - rewrite Hlook in A3 |- *. cbn [fst snd] in *. destruct (HN g1 w (set_io w s') He HJ0 Eg) as (g2 & H1 & H2 & H3).
          + exists (upd st (lab k) SN (Some d)). split.
            * split; [exact A1|]. cbn [w_io set_io]. eapply seq_trans; [exact A3|]. intros id dt. unfold upd. destruct (_ && _); [reflexivity|apply Hs].
            * apply (sees_upd iek Hiek K M Hdiff); [exact Hsees|exact Hkw|exact Hk|]. exists d. auto.
          + exists g2. auto.
      Qed.

      (** The node [cur] has been reached, past the nodes of [ps]. *)
      Definition at_node (g : ghost) (ps : list (N * bytes)) (cur : node) : Prop :=
        seg (g_f g kw) 0 ps (n_next cur) /\ N.of_nat (length ps) <= n_next cur <= M.
      Definition unseen (g : ghost) : Prop := ~ In t (map d_call (g_ds g)).
      Lemma at_ext g g' ps cur : ext t g g' -> at_node g ps cur -> at_node g' ps cur.
      Proof. intros [_ Hg] [H1 H2]. split; [|exact H2]. eapply seg_grow; [|exact H1]. intros k n. apply Hg. Qed.
      Lemma unseen_ext g g' : ext t g g' -> unseen g -> unseen g'.
      Proof. intros [(l & E & Hl) _] H. unfold unseen. rewrite E, map_app. intros Hi. apply in_app_or in Hi as [Hi|Hi]; auto. Qed.
      Lemma at_zero g : at_node g [] node_zero.
      Proof. split; [constructor|cbn; lia]. Qed.

      Lemma lw_next g ps cur (Q : res node -> ghost -> Prop) : at_node g ps cur ->
        (forall g1 w, ext t g g1 -> J g1 w -> path (g_f g1 kw) 0 ps (n_next cur) -> exists g2, does t c g1 g2 /\ J g2 w /\ Q (Err EIxNodeNotFound) g2) ->
        (forall g1 n, ext t g g1 -> at_node g1 (ps ++ [(n_next cur, n_id n)]) n -> Q (Ok n) g1) ->
        lw (get_next_node e io tk kek cur) Q g.
      Proof.
        intros Ha HN HS. unfold get_next_node, lift. rewrite (next_label_ok iek Hiek). apply lw_bindR. cbn [lw]. apply lw_bindR. unfold get_sealed_node.
        apply lw_bindR, lw_map_err. eapply lw_get; [apply Ha| |].
        - intros g1 w He HJ E. destruct (at_ext _ _ _ _ He Ha) as [Hseg _]. destruct (HN g1 w He HJ (seg_path _ _ _ _ Hseg E)) as (g2 & H1 & H2 & H3).
          exists g2. split; [exact H1|]. split; [exact H2|exact H3].
        - intros g1 w n b He HJ E Ho. unfold node_open in Ho. destruct (unmarshal dec_sealed_node b) as [sn|]; [|discriminate]. cbn [lw].
          unfold node_unseal. eapply lw_calm; [apply calm_decrypt_json|]. intros r g2 -> He2. rewrite Ho.
          assert (Ha1 : at_node g1 (ps ++ [(n_next cur, n_id n)]) n).
          { destruct (at_ext _ _ _ _ He Ha) as [Hseg Hb]. split; [now apply seg_snoc|].
            pose proof (J_bound _ _ HJ) as HB. destruct HJ as ((_ & Hwf & _) & _). destruct (Hwf kw (n_next cur) n Hkw ltac:(lia) E) as (L1 & L2 & _).
            rewrite app_length. cbn [length]. lia. }
          apply HS; [eapply ext_trans; eauto|]. eapply at_ext; eauto.
      Qed.
      Lemma J_path g w ps z : J g w -> path (g_f g kw) 0 ps z -> g_m g kw = map snd ps /\ z <= bound g.
      Proof.
        intros HJ Hp. pose proof (J_bound _ _ HJ) as HB. destruct HJ as ((_ & Hwf & Hrd) & _). destruct (Hrd kw Hkw) as (ps' & z' & Hp' & E).
        destruct (path_unique _ _ _ _ Hp' _ _ Hp) as [-> ->]. split; [auto|].
        pose proof (path_bounds iek Hiek K M HM kw Hkw tt2 (bound g) HB _ Hwf _ _ _ Hp ltac:(lia)) as (_ & B & _). apply B. lia.
      Qed.

      Lemma lw_last n : forall g ps cur (Q : res node -> ghost -> Prop), at_node g ps cur -> (length ps + n = fuel)%nat ->
        (forall g1 w ps1 last, ext t g g1 -> J g1 w -> path (g_f g1 kw) 0 ps1 (n_next last) -> Q (Ok last) g1) ->
        lw (get_last_node e io tk kek n cur) Q g.
      Proof.
        induction n as [|n IH]; intros g ps cur Q Ha Hn HQ; cbn [get_last_node].
        - destruct Ha as [_ Ha]. lia.
        - apply lw_bind. eapply lw_next; [exact Ha| |].
          + intros g1 w He HJ Hp. exists g1. split; [now left|]. split; [exact HJ|]. cbn [lw]. eapply HQ; eauto.
          + intros g1 nd He Ha1. eapply IH; [exact Ha1|rewrite app_length; cbn [length]; lia|].
            intros g2 w ps1 last He2. apply HQ. eapply ext_trans; eauto.
      Qed.
      Lemma lw_search n : forall g ps cur (Q : res (list bytes) -> ghost -> Prop), at_node g ps cur -> (length ps + n = fuel)%nat ->
        (forall g1 w l, ext t g g1 -> J g1 w -> l = g_m g1 kw -> exists g2, does t c g1 g2 /\ J g2 w /\ Q (Ok l) g2) ->
        lw (search_loop e io tk kek n cur (map snd ps)) Q g.
      Proof.
        induction n as [|n IH]; intros g ps cur Q Ha Hn HQ; cbn [search_loop].
        - destruct Ha as [_ Ha]. lia.
        - apply lw_bind. eapply lw_next; [exact Ha| |].
          + intros g1 w He HJ Hp. destruct (J_path _ _ _ _ HJ Hp) as [E _]. exact (HQ g1 w (map snd ps) He HJ (eq_sym E)).
          + intros g1 nd He Ha1. change [n_id nd] with (map snd [(n_next cur, n_id nd)]). rewrite <- map_app.
            eapply IH; [exact Ha1|rewrite app_length; cbn [length]; lia|]. intros g2 w l He2. apply HQ. eapply ext_trans; eauto.
      Qed.
    End Keyword.

    (** ** A call *)
    Definition post (r : res ix_reply) (g : ghost) : Prop :=
      match r with Ok rep => In (mkDid t c rep) (g_ds g) | _ => unseen g /\ ix_refused c r end.
    Lemma post_ext r g g' : post r g -> ext t g g' -> post r g'.
    Proof.
      destruct r as [rep|x|]; cbn [post]; intros H He.
      - destruct He as [(l & E & _) _]. rewrite E. apply in_or_app. now left.
      - split; [|apply H]. eapply unseen_ext; [exact He|apply H].
      - split; [|apply H]. eapply unseen_ext; [exact He|apply H].
    Qed.
    Lemma lw_verify tok (Q : res unit -> ghost -> Prop) g :
      (forall r g', ext t g g' -> r = Ok tt \/ r = Err EIxNotAuthenticated \/ r = Err EIxNotAuthorized \/ r = Panic -> Q r g') ->
      lw (ix_verify idp tok) Q g.
    Proof.
      intros HQ. unfold ix_verify. apply lw_bind. eapply lw_calm; [apply calm_reads, Hidp|]. intros r g' _ He.
      destruct r as [i|x|]; [destruct (scope_contains _ _)|..]; cbn [lw]; apply HQ; auto.
    Qed.
    Lemma J_did g w f' m' rep : J g w -> unseen g -> state (bound g + is_add c) f' m' w -> (forall kw, clean f' kw) -> ix_does c rep (g_m g) m' ->
      J (mkGhost (g_ds g ++ [mkDid t c rep]) f' m') w.
    Proof.
      intros (_ & _ & Hser & Hnd & Hin) Hu Hst Hcl Hd. split; [|split; [exact Hcl|split; [|split]]]; cbn [g_ds g_f g_m].
      - unfold bound. cbn [g_ds]. rewrite map_app. cbn [map d_what]. rewrite count_snoc, N.add_assoc. exact Hst.
      - eapply serial_snoc; [exact Hser|exact Hd].
      - rewrite map_app. cbn [map d_call]. now apply nodup_snoc.
      - intros d Hx. apply in_app_or in Hx as [Hx|[<-|[]]]; [auto|exact Hc].
    Qed.
    Lemma lw_ret_map {A B} (h : A -> B) (p : prog W (res A)) (Q : res B -> ghost -> Prop) g :
      lw p (fun r g' => Q (res_map h r) g') g -> lw (ret_map h p) Q g.
    Proof. intros H. unfold ret_map. apply lw_bind. eapply lw_mono; [|exact H]. intros r g' HQ. exact HQ. Qed.

    Lemma lw_ix_search tok kw g : c = ISearch tok kw -> unseen g -> lw (ix_do e io idp iek fuel c) post g.
    Proof.
      intros Ec Hu. assert (Hkw : In kw K) by (apply (HK (ISearch tok kw)); eapply nth_error_In; rewrite <- Ec; exact Hc).
      assert (Ed : ix_do e io idp iek fuel c = ix_do e io idp iek fuel (ISearch tok kw)) by now rewrite Ec. rewrite Ed. clear Ed.
      cbn [ix_do]. apply lw_ret_map. unfold ix_search. apply lw_bindR, lw_verify. intros r g1 He1 Hr. pose proof (unseen_ext _ _ He1 Hu) as Hu1.
      destruct Hr as [-> |[-> |[-> | ->]]]; [|cbn [res_map res_bind post]; unfold ix_refused; auto..].
      unfold lift. rewrite (ix_keys_ok iek Hiek). apply lw_bindR. cbn [lw].
      eapply (lw_search kw Hkw fuel g1 [] node_zero); [apply at_zero|reflexivity|].
      intros g2 w l He2 HJ ->. pose proof (unseen_ext _ _ He2 Hu1) as Hu2.
      exists (mkGhost (g_ds g2 ++ [mkDid t c (IRIds (g_m g2 kw))]) (g_f g2) (g_m g2)). split; [|split].
      - right. eexists. split; [reflexivity|intros ? ? ? H; exact H].
      - eapply J_did; [exact HJ|exact Hu2| | |].
        + rewrite Ec. cbn [is_add]. rewrite N.add_0_r. apply HJ.
        + apply HJ.
        + rewrite Ec. cbn [ix_does]. split; [reflexivity|apply same_refl].
      - cbn [res_map res_bind post g_ds]. apply in_or_app. right. now left.
    Qed.
    Lemma sealed_nonempty sn : print (enc_sealed_node sn) <> [].
    Proof. discriminate. Qed.
    Lemma lw_ix_add tok kw y g : c = IAdd tok kw y -> unseen g -> lw (ix_do e io idp iek fuel c) post g.
    Proof.
      intros Ec Hu. assert (Hc' : nth_error calls t = Some (IAdd tok kw y)) by (rewrite <- Ec; exact Hc).
      assert (Hkw : In kw K) by (apply (HK (IAdd tok kw y)); eapply nth_error_In; exact Hc').
      assert (Ed : ix_do e io idp iek fuel c = ix_do e io idp iek fuel (IAdd tok kw y)) by now rewrite Ec. rewrite Ed. clear Ed.
      cbn [ix_do]. apply lw_ret_map. unfold ix_add. apply lw_bindR, lw_verify. intros r g1 He1 Hr. pose proof (unseen_ext _ _ He1 Hu) as Hu1.
      destruct Hr as [-> |[-> |[-> | ->]]]; [|cbn [res_map res_bind post]; unfold ix_refused; auto..].
      unfold lift. rewrite (ix_keys_ok iek Hiek). apply lw_bindR. cbn [lw]. apply lw_bindR.
      eapply (lw_last kw Hkw fuel g1 [] node_zero); [apply at_zero|reflexivity|].
      intros g2 w ps last He2 HJ Hp. pose proof (unseen_ext _ _ He2 Hu1) as Hu2. destruct (J_path kw Hkw _ _ _ _ HJ Hp) as [_ Hz].
      pose proof (J_room _ _ _ _ _ _ HJ Hc' Hu2) as HB.
      set (z := n_next last) in *. rewrite (next_label_ok iek Hiek). fold z. apply lw_bindR. cbn [lw].
      assert (Es : u64_succ z = z + 1) by (unfold u64_succ; apply N.mod_small; lia). rewrite Es.
      apply lw_bindR. eapply lw_calm; [apply calm_node_seal; cbn [n_next n_id]; lia|].
      intros r g3 Hr He3. pose proof (unseen_ext _ _ He3 Hu2) as Hu3.
      assert (Hps : seg (g_f g3 kw) 0 ps z).
      { eapply seg_grow; [|]; [intros k n; apply He3|]. clear -Hp. induction Hp; [constructor|now constructor]. }
      destruct Hr as [(sn & -> & Ho)| ->].
      - unfold put_sealed_node. apply lw_map_err. eapply (lw_put kw Hkw z (mkNode (as_text y) (z + 1))); [lia|apply sealed_nonempty|exact Ho| |].
        + intros g4 w4 w' He4 HJ4 E HR. pose proof (unseen_ext _ _ He4 Hu3) as Hu4. pose proof (J_room _ _ _ _ _ _ HJ4 Hc' Hu4) as HB4.
          assert (Hp4 : path (g_f g4 kw) 0 ps z) by (apply seg_path; [eapply seg_grow; [|exact Hps]; intros k n; apply He4|exact E]).
          pose proof HJ4 as ((_ & Hwf & Hrd) & Hcl & _).
          destruct (add_at_slot v iek Hiek K M HM tt2 tt2 (bound g4) kw (as_text y) (g_f g4) (g_m g4) ps z w' Hwf Hrd Hkw HB4 (as_text_valid y) Logic.I (fun _ _ H => H) Hp4 HR)
            as (m' & stale & H1 & H2 & H3 & H4 & H5).
          specialize (H4 (Hcl kw)). subst stale.
          set (f' := set_slot (g_f g4) kw z (Some (mkNode (as_text y) (z + 1)))) in *.
          exists (mkGhost (g_ds g4 ++ [mkDid t c IRUnit]) f' m'). split; [|split].
          * right. exists IRUnit. split; [reflexivity|]. intros kw' k n H. cbn [g_f]. unfold f'. rewrite set_other; [exact H|]. intros [= -> ->]. congruence.
          * assert (HJ' : J (mkGhost (g_ds g4 ++ [mkDid t c IRUnit]) f' m') w').
            { destruct HJ4 as (_ & _ & Hser & Hnd & Hin). split; [|split; [auto|split; [|split]]]; cbn [g_ds g_f g_m].
              - unfold bound. cbn [g_ds]. rewrite map_app. cbn [map d_what]. rewrite count_snoc, N.add_assoc, Ec. exact H1.
              - eapply serial_snoc; [exact Hser|]. cbn [d_what d_reply]. rewrite Ec. cbn [ix_does]. split; [reflexivity|exact H2].
              - rewrite map_app. cbn [map d_call]. now apply nodup_snoc.
              - intros d Hx. apply in_app_or in Hx as [Hx|[<-|[]]]; [auto|exact Hc]. }
            exact HJ'.
          * cbn [res_map res_bind post g_ds]. apply in_or_app. right. now left.
        + intros g4 He4. cbn [res_map res_bind post]. split; [eapply unseen_ext; eauto|]. unfold ix_refused. right. right. right.
          split; [eauto|]. right. reflexivity.
      - cbn [res_map res_bind post]. split; [exact Hu3|]. unfold ix_refused. right. right. right. split; [eauto|auto].
    Qed.
  End Thread.

  (** ** All calls *)
  Context (Hnodel : forall c, In c calls -> forall tok kw y, c <> IDelete tok kw y).
  Definition fine (g : ghost) (pool : list (prog W (res ix_reply))) : Prop :=
    forall t p, pool !! t = Some p -> exists c, nth_error calls t = Some c /\ lw t c p (post t c) g.
  Lemma conc_lin pool (w : W) tr pool' w' : ix_conc e v idp iek fuel io pool w tr pool' w' ->
    forall g, J g w -> fine g pool -> (forall d, In d (g_ds g) -> (d_call d < length pool)%nat) -> skipn (length pool) calls = obs_calls tr ->
    exists g', J g' w' /\ fine g' pool' /\ (exists l, g_ds g' = g_ds g ++ l) /\
      (forall tr1 tr2, tr = tr1 ++ tr2 -> exists ds1 ds2, g_ds g' = ds1 ++ ds2 /\ (exists l, ds1 = g_ds g ++ l) /\
        (forall t rep, In (OReply t (Ok rep)) tr1 -> In t (map d_call ds1)) /\
        (forall t, In t (map d_call ds1) -> (t < length pool + length (obs_calls tr1))%nat)).
  Proof.
    assert (Hstart : forall g g' pool tr2, (forall d, In d (g_ds g) -> (d_call d < length pool)%nat) -> (exists l, g_ds g' = g_ds g ++ l) ->
      exists ds1 ds2, g_ds g' = ds1 ++ ds2 /\ (exists l, ds1 = g_ds g ++ l) /\ (forall t rep, In (OReply t (Ok rep)) [] -> In t (map d_call ds1)) /\
        (forall t, In t (map d_call ds1) -> (t < length (pool : list (prog W (res ix_reply))) + length (obs_calls []))%nat) /\ tr2 = tr2 :> list ix_obs).
    { intros g g' pool0 tr2 Hl (l & E). exists (g_ds g), l. split; [exact E|]. split; [exists []; now rewrite app_nil_r|]. split; [intros ? ? []|].
      split; [|reflexivity]. intros t H. apply in_map_iff in H as (d & <- & Hd). specialize (Hl d Hd). cbn. lia. }
    intros H. induction H as [pool w|pool w w1 tr pool' w' HE H IH|c pool w tr pool' w' H IH|t X f k pool w tr pool' w' Hp H IH|t r pool w tr pool' w' Hp H IH];
      intros g HJ Hf Hl Hs.
    - exists g. split; [exact HJ|]. split; [exact Hf|]. split; [exists []; now rewrite app_nil_r|].
      intros tr1 tr2 E. symmetry in E. apply app_eq_nil in E as [-> ->].
      destruct (Hstart g g pool [] Hl) as (ds1 & ds2 & A1 & A2 & A3 & A4 & _); [exists []; now rewrite app_nil_r|]. exists ds1, ds2. auto.
    - apply IH; auto. destruct HE as [E1 E2]. eapply J_same; eauto.
    - assert (Hc : nth_error calls (length pool) = Some c).
      { cbn [obs_calls] in Hs. rewrite <- (firstn_skipn (length pool) calls), Hs.
        assert (L : length (firstn (length pool) calls) = length pool).
        { apply firstn_length_le. destruct (Nat.le_gt_cases (length pool) (length calls)) as [?|Hgt]; [assumption|]. rewrite skipn_all2 in Hs by lia. discriminate. }
        rewrite nth_error_app2 by lia. rewrite L, Nat.sub_diag. reflexivity. }
      destruct (IH g) as (g' & A1 & A2 & A3 & A4).
      + exact HJ.
      + intros t p Ht. apply lookup_app_Some in Ht as [Ht|[Ht1 Ht2]]; [auto|]. apply list_lookup_singleton_Some in Ht2 as [Ht2 <-].
        assert (t = length pool) by lia. subst t. exists c. split; [exact Hc|].
        assert (Hu : unseen (length pool) g).
        { intros Hin. apply in_map_iff in Hin as (d & Ed & Hd). specialize (Hl d Hd). lia. }
        destruct c as [tok kw y|tok kw|tok kw y].
        * eapply lw_ix_add; eauto.
        * eapply lw_ix_search; eauto.
        * exfalso. eapply (Hnodel (IDelete tok kw y)); [eapply nth_error_In; exact Hc|reflexivity].
      + intros d Hd. specialize (Hl d Hd). rewrite app_length. lia.
      + rewrite app_length. cbn [length]. cbn [obs_calls] in Hs. rewrite <- drop_drop, Hs. reflexivity.
      + exists g'. split; [exact A1|]. split; [exact A2|]. split; [exact A3|]. intros tr1 tr2 E. destruct tr1 as [|o tr1].
        * destruct (Hstart g g' pool tr2 Hl A3) as (ds1 & ds2 & B1 & B2 & B3 & B4 & _). exists ds1, ds2. auto.
        * injection E as <- E. destruct (A4 tr1 tr2 E) as (ds1 & ds2 & B1 & B2 & B3 & B4). exists ds1, ds2. split; [exact B1|]. split; [exact B2|].
          split; [intros t rep [Hx|Hx]; [discriminate|eauto]|]. intros t Ht. specialize (B4 t Ht). rewrite app_length in B4. cbn [obs_calls length] in *. lia.
    - destruct (Hf t _ Hp) as (c & Hc & Hlw). cbn [lw] in Hlw. destruct (Hlw g w (ext_refl t g) HJ) as (g2 & D1 & D2 & D3).
      assert (Ht : (t < length pool)%nat) by (eapply lookup_lt_Some; exact Hp).
      destruct (IH g2) as (g' & A1 & A2 & (l2 & A3) & A4).
      + exact D2.
      + intros t' p Hp'. destruct (decide (t' = t)) as [->|Hne].
        * rewrite list_lookup_insert in Hp' by exact Ht. injection Hp' as <-. eauto.
        * rewrite list_lookup_insert_ne in Hp' by congruence. destruct (Hf t' p Hp') as (c' & Hc' & Hlw'). exists c'. split; [exact Hc'|].
          eapply lw_ext; [apply post_ext|exact Hlw'|]. eapply does_ext; eauto.
      + rewrite insert_length. intros d Hd. destruct D1 as [->|(rep & E & _)]; [auto|]. rewrite E in Hd. apply in_app_or in Hd as [Hd|[<-|[]]]; [auto|exact Ht].
      + rewrite insert_length. exact Hs.
      + assert (HD : exists l, g_ds g2 = g_ds g ++ l) by (destruct D1 as [->|(rep & E & _)]; [exists []; now rewrite app_nil_r|eauto]).
        destruct HD as (l1 & HD). exists g'. split; [exact A1|]. split; [exact A2|]. split; [exists (l1 ++ l2); rewrite A3, HD; now rewrite app_assoc|].
        intros tr1 tr2 E. destruct (A4 tr1 tr2 E) as (ds1 & ds2 & B1 & (l3 & B2) & B3 & B4). exists ds1, ds2. split; [exact B1|].
        split; [exists (l1 ++ l3); rewrite B2, HD; now rewrite app_assoc|]. split; [exact B3|]. rewrite insert_length in B4. exact B4.
    - destruct (IH g HJ Hf Hl Hs) as (g' & A1 & A2 & A3 & A4). exists g'. split; [exact A1|]. split; [exact A2|]. split; [exact A3|].
      intros tr1 tr2 E. destruct tr1 as [|o tr1].
      + destruct (Hstart g g' pool tr2 Hl A3) as (ds1 & ds2 & B1 & B2 & B3 & B4 & _). exists ds1, ds2. auto.
      + injection E as <- E. destruct (A4 tr1 tr2 E) as (ds1 & ds2 & B1 & (l & B2) & B3 & B4). exists ds1, ds2. split; [exact B1|]. split; [eauto|].
        split; [|exact B4]. intros t' rep [Hx|Hx]; [|eauto]. injection Hx as -> ->. destruct (Hf t' _ Hp) as (c & Hc & HQ). cbn [lw post] in HQ.
        rewrite B2, map_app. apply in_or_app. left. apply in_map_iff. eexists. split; [|exact HQ]. reflexivity.
  Qed.
End Conc.

Lemma conc_ret {S I} (e : env) (v : view S) idp iek fuel io pool (w : world S I) tr pool' w' : ix_conc e v idp iek fuel io pool w tr pool' w' ->
  (forall t r, pool !! t = Some (Ret r) -> pool' !! t = Some (Ret r)) /\
  (forall t r, In (OReply t r) tr -> pool' !! t = Some (Ret r)).
Proof.
  intros H. induction H as [pool w|pool w w1 tr pool' w' HE H IH|c pool w tr pool' w' H IH|t X f k pool w tr pool' w' Hp H IH|t r pool w tr pool' w' Hp H IH].
  - split; [auto|intros ? ? []].
  - exact IH.
  - destruct IH as [I1 I2]. split; [|intros t r [Hx|Hx]; [discriminate|auto]]. intros t r Ht. apply I1. rewrite lookup_app_l; [exact Ht|]. eapply lookup_lt_Some; exact Ht.
  - destruct IH as [I1 I2]. split; [|exact I2]. intros t' r Ht. apply I1. rewrite list_lookup_insert_ne; [exact Ht|]. intros ->. rewrite Hp in Ht. discriminate.
  - destruct IH as [I1 I2]. split; [exact I1|]. intros t' r' [Hx|Hx]; [|auto]. injection Hx as -> ->. auto.
Qed.

(** ** Results *)
Lemma reads_reads {S I} (v : view S) (idp : bytes -> prog (world S I) (res identity)) : (forall tok, only_reads v (idp tok)) -> idp_reads v idp.
Proof.
  intros H tok w m Hh. specialize (H tok). revert w Hh. induction (idp tok) as [b|X f k IH]; intros w Hh.
  - apply wpc_ret; auto.
  - cbn [only_reads] in H. destruct (H w (proj1 Hh)) as (H1 & H2 & H3). split; [exact Hh|]. apply IH; [exact H3|].
    split; [exact H1|]. eapply seq_trans; [exact H2|apply Hh].
Qed.

Section Result.
  Context {S I : Type} (e : env) (v : view S) (io : provider S) (Hio : io_spec False v io) (Hat : atomic_get_put v io).
  Notation W := (world S I).
  Context (idp : bytes -> prog W (res identity)) (Hidp : forall tok, only_reads v (idp tok)).

  Lemma linearizable ks iek fuel (w : W) evs w1 tr pool w2 : let calls := map iv_call evs ++ obs_calls tr in
    ix_new ks = Ok iek -> ix_fresh v w ->
    ix_run e v idp iek fuel io w evs w1 -> ix_conc e v idp iek fuel io [] w1 tr pool w2 ->
    (forall c, In c (obs_calls tr) -> forall tok kw y, c <> IDelete tok kw y) ->
    N.of_nat (count_adds calls) < 2 ^ 64 -> (count_adds calls < fuel)%nat ->
    labels_differ iek (map ix_keyword calls) (N.of_nat (count_adds calls)) ->
    exists m ds m', ix_history index_empty evs m /\ ix_linearizes m tr ds m' /\
      (forall t c r, nth_error (obs_calls tr) t = Some c -> In (OReply t r) tr -> (exists rep, r = Ok rep) \/ ix_refused c r).
  Proof.
    intros calls Hks HF Hr Hcc Hcalls H64 Hfuel Hd.
    assert (Hiek : blen iek = 32) by exact (ix_new_length ks iek Hks).
    set (K := map ix_keyword calls) in *. set (M := N.of_nat (count_adds calls)) in *.
    assert (HM : M = N.of_nat (count_adds (map iv_call evs)) + N.of_nat (count_adds (obs_calls tr))).
    { unfold M, calls, count_adds. rewrite filter_app, app_length. lia. }
    destruct (fresh_state v iek K M w HF) as [HS HC].
    destruct (run_refines e v idp (reads_reads v idp Hidp) iek Hiek K M H64 Hd io Hio fuel w evs w1 Hr [] 0 _ index_empty HS HC) as (m & Hm & f & P & HSt & HCl).
    { intros ev Hev. unfold K, calls. rewrite map_app. apply in_or_app. left. apply in_map, in_map, Hev. }
    { lia. } { lia. }
    assert (HJ : J v iek K M m (N.of_nat (count_adds (map iv_call evs))) (obs_calls tr) (mkGhost [] f m) w1).
    { split; [|split; [exact HCl|split; [|split]]]; cbn [g_ds g_f g_m].
      - destruct HSt as (A1 & A2 & A3). split; [exact A1|]. split; [|exact A3]. intros kw c n Hk Hc En. destruct (A2 kw c n Hk Hc En) as (B1 & B2 & B3 & _). split; [exact B1|]. split; [unfold bound; cbn [g_ds map]; lia|]. split; [exact B3|exact Logic.I].
      - constructor. apply same_refl.
      - constructor.
      - intros d []. }
    pose proof (conc_lin e v io Hat idp Hidp iek Hiek K M H64 Hd fuel ltac:(lia) m (N.of_nat (count_adds (map iv_call evs))) (obs_calls tr)) as HL.
    assert (X1 : forall c, In c (obs_calls tr) -> In (ix_keyword c) K).
    { intros c Hc. unfold K, calls. rewrite map_app. apply in_or_app. right. now apply in_map. }
    assert (X3 : forall c, In c (obs_calls tr) -> forall tok kw y, c <> IDelete tok kw y) by (intros c Hc; apply (Hcalls c Hc)).
    specialize (HL X1 ltac:(lia) X3 [] w1 tr pool w2 Hcc (mkGhost [] f m) HJ).
    destruct HL as (g' & A1 & A2 & _ & A4).
    - intros t p Hp. discriminate.
    - intros d [].
    - reflexivity.
    - destruct (conc_ret _ _ _ _ _ _ _ _ _ _ _ Hcc) as [_ HR]. pose proof A1 as (_ & _ & B1 & B2 & B3).
      assert (HP : forall t r, In (OReply t r) tr -> exists c, nth_error (obs_calls tr) t = Some c /\ post t c r g').
      { intros t r Hin. destruct (A2 t (Ret r) (HR t r Hin)) as (c & Hc & HQ). eauto. }
      exists m, (g_ds g'), (g_m g'). split; [exact Hm|]. split.
      + split; [exact B1|]. split; [exact B2|]. split; [exact B3|]. split; [|split].
        * intros t rep Hin. destruct (HP t _ Hin) as (c & _ & HQ). exists c. exact HQ.
        * intros t r Hin Hr'. destruct (HP t _ Hin) as (c & _ & HQ). destruct r as [rep|x|]; [destruct (Hr' rep eq_refl)|apply HQ..].
        * intros tr1 tr2 E. destruct (A4 tr1 tr2 E) as (ds1 & ds2 & C1 & _ & C3 & C4). exists ds1, ds2. auto.
      + intros t c r Hc Hin. destruct (HP t _ Hin) as (c' & Hc' & HQ). rewrite Hc in Hc'. injection Hc' as <-. destruct r as [rep|x|]; [eauto|right; apply HQ..].
  Qed.
End Result.

Lemma serial_app ds1 : forall m ds2 m', ix_serial m (ds1 ++ ds2) m' -> exists m1, ix_serial m ds1 m1 /\ ix_serial m1 ds2 m'.
Proof.
  induction ds1 as [|d ds1 IH]; intros m ds2 m' H; cbn [app] in H.
  - exists m. split; [constructor; apply same_refl|exact H].
  - inversion H as [|? ? m1 ? ? Hd H1]; subst. destruct (IH _ _ _ H1) as (m2 & H2 & H3). exists m2. split; [econstructor; eauto|exact H3].
Qed.
Definition spares (kw y : bytes) (ds : list ix_did) : Prop := forall d, In d ds -> forall tok, d_what d <> IDelete tok kw y.
Lemma serial_keeps m ds m' kw y : ix_serial m ds m' -> spares kw y ds -> In y (m kw) -> In y (m' kw).
Proof.
  intros H. induction H as [m m' Hs|m d m1 ds m2 Hd H IH]; intros Hn Hy; [now rewrite (Hs kw)|].
  apply IH; [intros d' H'; apply Hn; now right|]. specialize (Hn d (or_introl eq_refl)).
  destruct (d_what d) as [tok kw' y'|tok kw'|tok kw' y']; cbn [ix_does] in Hd.
  - destruct Hd as [_ [H1 H2]]. destruct (decide (kw = kw')) as [->|Hne]; [rewrite H1; apply in_or_app; now left|now rewrite H2].
  - destruct Hd as [_ Hs]. now rewrite (Hs kw).
  - destruct Hd as [_ [H1 H2]]. destruct (decide (kw = kw')) as [->|Hne]; [|now rewrite H2]. rewrite H1. unfold without. apply filter_In.
    split; [exact Hy|]. destruct (bytes_eqb y y') eqn:E; [|reflexivity]. apply bytes_eqb_eq in E. subst y'. destruct (Hn tok eq_refl).
Qed.
Lemma serial_adds m ds m' d tok kw y : ix_serial m ds m' -> spares kw (as_text y) ds -> In d ds -> d_what d = IAdd tok kw y -> In (as_text y) (m' kw).
Proof.
  intros H Hn Hd Ew. apply in_split in Hd as (l1 & l2 & ->). destruct (serial_app _ _ _ _ H) as (m1 & _ & H2).
  inversion H2 as [|? ? m2 ? ? Hdo H3]; subst. eapply serial_keeps; [exact H3|intros d' H'; apply Hn; apply in_or_app; right; now right|].
  rewrite Ew in Hdo. destruct Hdo as [_ [-> _]]. apply in_or_app. right. now left.
Qed.
Lemma obs_calls_app tr1 tr2 : obs_calls (tr1 ++ tr2) = obs_calls tr1 ++ obs_calls tr2.
Proof. induction tr1 as [|[c|t r] tr1 IH]; cbn [app obs_calls]; now rewrite ?IH. Qed.
Lemma linearizes_found m tr ds m' tr1 tr2 t tok kw y rep tok' l : ix_linearizes m tr ds m' ->
  (forall tok, ~ In (IDelete tok kw (as_text y)) (obs_calls tr)) ->
  tr = tr1 ++ OCall (ISearch tok' kw) :: tr2 -> nth_error (obs_calls tr1) t = Some (IAdd tok kw y) -> In (OReply t (Ok rep)) tr1 ->
  In (OReply (length (obs_calls tr1)) (Ok (IRIds l))) tr2 -> In (as_text y) l.
Proof.
  intros (H1 & H2 & H3 & H4 & H5 & H6) Hnd E Ht Hin Hs.
  assert (Hdn : spares kw (as_text y) ds) by (intros d Hd tk Ew; apply (Hnd tk); rewrite <- Ew; eapply nth_error_In, H3, Hd).
  destruct (H6 tr1 _ E) as (ds1 & ds2 & Eds & D1 & D2).
  specialize (D1 t rep Hin). apply in_map_iff in D1 as (d & Ed & Hd).
  assert (Ew : d_what d = IAdd tok kw y).
  { assert (Hx : In d ds) by (rewrite Eds; apply in_or_app; now left). specialize (H3 d Hx). rewrite Ed, E, obs_calls_app, nth_error_app1 in H3; [congruence|].
    apply nth_error_Some. rewrite Ht. discriminate. }
  destruct (H4 (length (obs_calls tr1)) (IRIds l)) as (c & Hc). { rewrite E. apply in_or_app. right. now right. }
  assert (Ec : c = ISearch tok' kw).
  { specialize (H3 _ Hc). cbn [d_call d_what] in H3. rewrite E, obs_calls_app, nth_error_app2, Nat.sub_diag in H3 by lia. cbn in H3. congruence. }
  subst c. rewrite Eds in Hc, H1, Hdn. destruct (serial_app _ _ _ _ H1) as (m1 & S1 & S2). apply in_app_or in Hc as [Hc|Hc].
  - exfalso. assert (length (obs_calls tr1) < length (obs_calls tr1))%nat; [|lia]. apply D2. apply in_map_iff. eexists. split; [|exact Hc]. reflexivity.
  - assert (Hy : In (as_text y) (m1 kw)) by (eapply serial_adds; [exact S1|intros d' H'; apply Hdn, in_or_app; now left|exact Hd|exact Ew]).
    apply in_split in Hc as (l1 & l2 & ->). destruct (serial_app _ _ _ _ S2) as (m2 & S3 & S4). inversion S4 as [|? ? m3 ? ? Hdo S5]; subst.
    cbn [d_what d_reply ix_does] in Hdo. destruct Hdo as [[= ->] _]. eapply serial_keeps; [exact S3| |exact Hy].
    intros d' H'. apply Hdn. apply in_or_app. right. apply in_or_app. now left.
Qed.

Lemma linearizable_flat {S I} (e : env) (v : view S) (io : provider S) (Hio : io_spec False v io) (Hat : atomic_get_put v io)
    (idp : bytes -> prog (world S I) (res identity)) (Hidp : forall tok, only_reads v (idp tok))
    ks iek fuel (w : world S I) evs w1 tr pool w2 :
  ix_new ks = Ok iek -> ix_fresh v w ->
  ix_run e v idp iek fuel io w evs w1 -> ix_conc e v idp iek fuel io [] w1 tr pool w2 ->
  (forall c, In c (obs_calls tr) -> forall tok kw y, c <> IDelete tok kw y) ->
  let calls := map iv_call evs ++ obs_calls tr in
  N.of_nat (count_adds calls) < 2 ^ 64 -> (count_adds calls < fuel)%nat ->
  labels_differ iek (map ix_keyword calls) (N.of_nat (count_adds calls)) ->
  exists m ds m', ix_history index_empty evs m /\ ix_linearizes m tr ds m' /\
    (forall t c r, nth_error (obs_calls tr) t = Some c -> In (OReply t r) tr -> (exists rep, r = Ok rep) \/ ix_refused c r).
Proof. intros. eapply (linearizable e v io Hio Hat idp Hidp ks iek fuel w evs w1 tr pool w2); eassumption. Qed.
Lemma adds_found {S I} (e : env) (v : view S) (io : provider S) (idp : bytes -> prog (world S I) (res identity)) (ks : res keys) (iek : bytes) (fuel : nat)
    (w w1 w2 : world S I) (evs : list ix_event) (tr1 tr2 : list ix_obs) (pool : list (prog (world S I) (res ix_reply)))
    (t : nat) (tok tok' kw y : bytes) (rep : ix_reply) (l : list bytes) :
  let tr := tr1 ++ OCall (ISearch tok' kw) :: tr2 in
  let calls := map iv_call evs ++ obs_calls tr in
  io_spec False v io -> atomic_get_put v io -> (forall tok, only_reads v (idp tok)) -> ix_new ks = Ok iek -> ix_fresh v w ->
  ix_run e v idp iek fuel io w evs w1 -> ix_conc e v idp iek fuel io [] w1 tr pool w2 ->
  (forall c, In c (obs_calls tr) -> forall tok kw y, c <> IDelete tok kw y) ->
  N.of_nat (count_adds calls) < 2 ^ 64 -> (count_adds calls < fuel)%nat ->
  labels_differ iek (map ix_keyword calls) (N.of_nat (count_adds calls)) ->
  nth_error (obs_calls tr1) t = Some (IAdd tok kw y) -> In (OReply t (Ok rep)) tr1 ->
  In (OReply (length (obs_calls tr1)) (Ok (IRIds l))) tr2 -> In (as_text y) l.
Proof.
  intros tr calls Hio Hat Hidp H1 H2 H3 H4 H5 H6 H7 H8 H9 H10 H11.
  destruct (linearizable e v io Hio Hat idp Hidp ks iek fuel w evs w1 tr pool w2 H1 H2 H3 H4 H5 H6 H7 H8) as (m & ds & m' & _ & HL & _).
  eapply (linearizes_found m tr ds m' tr1 tr2 t tok kw y rep tok' l HL); [|reflexivity|exact H9|exact H10|exact H11].
  intros tk Hin. exact (H5 _ Hin tk kw (as_text y) eq_refl).
Qed.

(** ** Bolt is such a storage *)
Lemma bolt_atomic : atomic_get_put bolt_view Bolt.
Proof.
  destruct (bolt_spec False) as [HP HG _ _]. split.
  - intros id dt Hdt. cbn [io_get Bolt]. unfold bolt_get, act. cbn [atomic]. intros s Hs. cbn [v_map bolt_view v_inv] in *.
    cbn [fst snd]. split; [exact Hs|]. split; [|apply seq_refl]. unfold map_get. rewrite (look_at bolt_key s id dt Hdt). cbn [fst].
    destruct (s !! bolt_key id dt) as [[|b l]|] eqn:Hk; [destruct (Hs _ Hk)|reflexivity..].
  - intros id dt d Hdt Hd. cbn [io_put Bolt]. unfold bolt_put, act. cbn [atomic]. intros s Hs. cbn [v_map bolt_view v_inv] in *.
    pose proof (look_at bolt_key s id dt Hdt) as L. pose proof (look_insert bolt_key bolt_key_inj s id dt d Hdt) as E. unfold map_put. rewrite L.
    destruct (s !! bolt_key id dt) as [b|] eqn:Hk; cbn [fst snd].
    + split; [exact Hs|]. split; [reflexivity|apply seq_refl].
    + split; [|split; [reflexivity|exact E]]. intros k. destruct (decide (bolt_key id dt = k)) as [<-|Hne]; [rewrite lookup_insert; congruence|].
      rewrite lookup_insert_ne by exact Hne. apply Hs.
Qed.
