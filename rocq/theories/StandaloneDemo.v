(** A concrete history of the Standalone provider on the in-memory store. *)
From Coq Require Import ZifyN ZifyNat.
From stdpp Require Import gmap.
From Verif Require D1Refine.
From Verif Require Import Bytes Base64 Go Uuid UuidProofs Time Types World Logic Cryptor Io IoSpec IoProofs Id Data D1 D1Proofs Sched Password Standalone Spec StandaloneSpec
  WpcFacts TokenFacts StandaloneProofs StandaloneRefine StandaloneHist StandaloneFacts Demo.
Local Open Scope bool_scope.
Local Open Scope N_scope.

(** The clock stands still; the first draw is the byte 0, repeated, every other the byte 1. *)
Definition sa_env : env := mkEnv (fun i n => Some (repeat (match i with O => x00 | _ => x01 end) (N.to_nat n))) (fun _ => mkT 0 0 0) (fun pw salt => pw ++ salt).
Lemma sa_clock n : time_wf (clock sa_env n).
Proof. vm_compute. repeat split; discriminate. Qed.
Lemma sa_draw i n : exists b, draw sa_env i n = Ok b.
Proof.
  unfold draw. cbn [tape sa_env]. unfold blen. rewrite repeat_length, N2Nat.id, N.eqb_refl. eauto.
Qed.
Lemma sa_rng {S I} (w : world S I) : ~ rng_failed sa_env w.
Proof. intros [n H]. destruct (sa_draw (pred (w_draws w)) n) as [b E]. congruence. Qed.
Section Keys.
Context (sa_k : sa_keys).
Definition sa_w : world (gmap bytes bytes) unit := demo_w.
Notation SW := (world (gmap bytes bytes) unit).
Lemma sa_w_fresh : sa_fresh mem_view sa_k sa_w.
Proof. split; [exact Logic.I|]. split; [intros id dt [-> | ->]; apply lookup_empty|]. split; [constructor|reflexivity]. Qed.

(** The events so far, the directory and the world they lead to. *)
Definition reach (evs : list sa_event) (d : directory) (w : SW) : Prop :=
  sa_run sa_env Mem sa_k (fun _ _ => False) sa_w evs w /\ sa_history dir_empty evs d /\ WR mem_view sa_k false d w.
Lemma run_between {S I} e (io : provider S) k (B B' : world S I -> world S I -> Prop) w evs w' :
  (forall a b, B a b -> B' a b) -> sa_run e io k B w evs w' -> sa_run e io k B' w evs w'.
Proof. intros HB H. induction H; [constructor|eapply sr_env; eauto|eapply sr_call; eauto]. Qed.
Lemma run_snoc {S I} e (io : provider S) k B (w : world S I) evs w1 c r w2 : sa_run e io k B w evs w1 -> sa_call_wf c ->
  run (sa_aes e io k c) w1 = (r, w2) -> sa_run e io k B w (evs ++ [mkSaEvent (surr e w1 (rng_failed e w2)) c r]) w2.
Proof.
  intros H Hwf Hr. induction H as [w|w w0 evs w' HE HR IH|w c' r' w0 evs w' Hwf' Hr' HR IH]; cbn [app].
  - eapply sr_call; [exact Hwf|exact Hr|constructor].
  - eapply sr_env; [exact HE|auto].
  - eapply sr_call; [exact Hwf'|exact Hr'|auto].
Qed.
Lemma reach_start : reach [] dir_empty sa_w.
Proof. split; [constructor|]. split; [constructor|]. apply (fresh_WR mem_view sa_k sa_w sa_w_fresh). Qed.
Lemma reach_observed evs d w : reach evs d w -> @observed _ unit sa_env mem_view Mem sa_k evs.
Proof. intros (H & _ & Hw). exists sa_w, w. split; [exact sa_w_fresh|]. split; [eapply run_between; [|exact H]; intros a b []|]. apply Hw. Qed.
Lemma reach_unique evs d w : reach evs d w -> unique d.
Proof. intros (_ & H & _). eapply unique_history; [exact H|apply unique_empty]. Qed.
Lemma reach_next evs d w c : reach evs d w -> sa_call_wf c -> ~ suspicious c d ->
  exists r w' d', let ev := mkSaEvent (surr sa_env w (rng_failed sa_env w')) c r in
    reach (evs ++ [ev]) d' w' /\ sa_step (sv_x ev) c d r d' /\ w' = snd (run (sa_aes sa_env Mem sa_k c) w).
Proof.
  intros (H & Hh & Hw) Hwf Hs. destruct (run (sa_aes sa_env Mem sa_k c) w) as [r w'] eqn:Er. exists r, w'.
  destruct (call_cases sa_env mem_view Mem (mem_spec False) sa_k sa_clock false c d w r w' Hwf Hw Er) as [[_ X]|(d' & A & B)]; [contradiction|].
  exists d'. cbn zeta. split; [|split; [exact B|reflexivity]]. split; [eapply run_snoc; eauto|]. split; [|exact A]. apply sh_app. exists d. split; [exact Hh|]. now apply sh_one.
Qed.

(** What single calls do when nothing stands in their way. *)
Notation T0 := (mkT 0 0 0).
Notation T1 := (time_add T0 3600).
Definition calm (x : surroundings) : Prop := x_now x = T0 /\ ~ x_rng_fails x /\ x_hash x = (fun pw salt => pw ++ salt).
Lemma calm_surr (w w' : SW) : calm (surr sa_env w (rng_failed sa_env w')).
Proof. split; [reflexivity|]. split; [apply sa_rng|reflexivity]. Qed.
Lemma T1_text : time_text T1 <> None.
Proof. vm_compute. discriminate. Qed.
Lemma T0_T1 : (nanos T0 <= nanos T1)%Z.
Proof. vm_compute. discriminate. Qed.

Lemma login_ok x uid pw d r d' a : calm x -> d_users d !! uid = Some a -> pw ++ ac_salt a = ac_hash a -> sa_step x (SLogin uid pw) d r d' ->
  exists s, r = Ok (SRToken s (time_unix T1)) /\ d' = add_session d (mkSession s uid T1) /\ says d' s uid T1.
Proof.
  intros (C1 & C2 & C3) Ha Hk St. cbn [sa_step] in St. rewrite Ha, C1 in St. unfold knows in St. rewrite C3 in St. cbn zeta in St.
  destruct St as [(N & _)|(_ & [([X|X] & _)|(s & _ & E1 & E2 & Hs)])]; [contradiction|contradiction|destruct (T1_text X)|].
  exists s. split; [exact E1|]. split; [exact E2|]. apply Hs. auto.
Qed.
Lemma resolve_ok d tok uid a q : unique d -> says d tok uid T1 -> d_users d !! uid = Some a -> resolves d T0 tok q ->
  (exists i, describes d uid a i /\ q = Ok i) \/ (exists g, g ∈ ac_groups a /\ d_groups d !! g = None /\ q = Err EIdGroupNotFound).
Proof.
  intros U Sy Ha [(u & x & Sy' & _ & C)|[N _]].
  - destruct (U _ _ _ _ _ Sy Sy') as [<- <-]. rewrite Ha in C. exact C.
  - specialize (N _ _ Sy). pose proof T0_T1. lia.
Qed.
Lemma caller_ok x tok d r d' body uid a : calm x -> unique d -> says d tok uid T1 -> d_users d !! uid = Some a ->
  (forall g, g ∈ ac_groups a -> is_Some (d_groups d !! g)) -> as_caller x tok d r d' body -> exists i, describes d uid a i /\ body i.
Proof.
  intros (C1 & _) U Sy Ha Hg [(i & Rs & B)|(y & Rs & _)]; rewrite C1 in Rs; destruct (resolve_ok _ _ _ _ _ U Sy Ha Rs) as [(j & D & E)|(g & G1 & G2 & E)]; try discriminate.
  - injection E as <-. eauto.
  - destruct (Hg _ G1). congruence.
Qed.
Lemma add_ok x tok uid gids d r d' caller ac a : calm x -> unique d -> says d tok caller T1 -> d_users d !! caller = Some ac ->
  (forall g, g ∈ ac_groups ac -> is_Some (d_groups d !! g)) -> (forall g, In g gids -> g = caller \/ g ∈ ac_groups ac) -> d_users d !! uid = Some a ->
  sa_step x (SAddUser tok uid gids) d r d' ->
  r = Ok SRUnit /\ d' = set_users d (<[uid := mkAccount (ac_scopes a) (ac_salt a) (ac_hash a) (ac_groups a ∪ list_to_set gids)]> (d_users d)).
Proof.
  intros C U Sy Hca Hg Hin Ha St. destruct (caller_ok _ _ _ _ _ _ _ _ C U Sy Hca Hg St) as (i & (D1 & _ & D3 & D4) & B).
  destruct B as [(N & _)|(_ & B)].
  - exfalso. apply N. intros g Hi. destruct (Hin g Hi) as [->|X]; [left; congruence|]. right. destruct (D3 g X) as [s Es]. exists s. apply D4. auto.
  - rewrite Ha in B. destruct B as [(X & _)|B]; [|exact B]. destruct C as (_ & C & _). contradiction.
Qed.
Lemma group_ok x tok scopes d r d' caller ac b : calm x -> unique d -> says d tok caller T1 -> d_users d !! caller = Some ac ->
  (forall g, g ∈ ac_groups ac -> is_Some (d_groups d !! g)) -> x_draw x 0 16 = Ok b -> d_groups d !! uuid_text (uuid_v4 b) = None ->
  sa_step x (SNewGroup tok scopes) d r d' ->
  let gid := uuid_text (uuid_v4 b) in exists s, r = Ok (SRGroup gid) /\ all_of scopes s /\
    d' = mkDirectory (<[caller := mkAccount (ac_scopes ac) (ac_salt ac) (ac_hash ac) (ac_groups ac ∪ {[gid]})]> (d_users d)) (<[gid := s]> (d_groups d)) (d_sessions d).
Proof.
  intros C U Sy Hca Hg Hb Hn St. destruct (caller_ok _ _ _ _ _ _ _ _ C U Sy Hca Hg St) as (i & (D1 & _ & D3 & D4) & B).
  destruct C as (_ & C & _). destruct B as [(X & _)|[(X & _)|(b' & s & Hb' & A & B)]]; [contradiction..|]. rewrite Hb in Hb'. injection Hb' as <-. cbn zeta in B |- *.
  rewrite Hn, D1 in B. destruct B as (a & Ea & -> & ->). rewrite Hca in Ea. injection Ea as <-. eauto.
Qed.
Lemma new_ok x scopes d r d' b : calm x -> (forall i n, exists b, x_draw x i n = Ok b) -> x_draw x 0 16 = Ok b -> d_users d !! uuid_text (uuid_v4 b) = None ->
  sa_step x (SNewUser scopes) d r d' -> let uid := uuid_text (uuid_v4 b) in
  exists pw s salt, r = Ok (SRUser uid pw) /\ all_of scopes s /\ d' = set_users d (<[uid := mkAccount s salt (pw ++ salt) ∅]> (d_users d)).
Proof.
  intros (_ & C & C3) _ Hb Hn [(X & _)|(b' & raw & salt & s & Hb' & _ & _ & A & B)]; [contradiction|]. rewrite Hb in Hb'. injection Hb' as <-.
  cbn zeta in B |- *. rewrite Hn, C3 in B. destruct B as [-> ->]. exists (b64url_encode raw), s, salt. auto.
Qed.
Lemma change_ok x uid old d r d' a : calm x -> d_users d !! uid = Some a -> old ++ ac_salt a = ac_hash a -> sa_step x (SChangePassword uid old) d r d' ->
  exists pw salt, r = Ok (SRPassword pw) /\ d' = set_users d (<[uid := mkAccount (ac_scopes a) salt (pw ++ salt) (ac_groups a)]> (d_users d)).
Proof.
  intros (_ & C & C3) Ha Hk St. cbn [sa_step] in St. rewrite Ha in St. unfold knows in St. rewrite C3 in St. cbn zeta in St.
  destruct St as [(N & _)|(_ & [(X & _)|(raw & salt & _ & _ & -> & ->)])]; [contradiction..|]. eauto.
Qed.

(** ** Draws are never taken back *)
Section Draws.
  Context {S I : Type} (e : env) (io : provider S).
  Notation W := (world S I).
  Fixpoint dmono {A} (p : prog W A) : Prop :=
    match p with Ret _ => True | Step f k => forall w, (w_draws w <= w_draws (snd (f w)))%nat /\ dmono (k (fst (f w))) end.
  Lemma dmono_run {A} (p : prog W A) w : dmono p -> (w_draws w <= w_draws (snd (run p w)))%nat.
  Proof.
    revert w. induction p as [a|X f k IH]; intros w H; cbn [run]; [cbn; lia|]. cbn [dmono] in H. destruct (H w) as [H1 H2].
    destruct (f w) as [x w1]. cbn [fst snd] in *. specialize (IH x w1 H2). lia.
  Qed.
  Lemma dmono_bind {A B} (p : prog W A) (f : A -> prog W B) : dmono p -> (forall a, dmono (f a)) -> dmono (bind p f).
  Proof. intros Hp Hf. induction p as [a|X g k IH]; cbn [bind dmono] in *; [apply Hf|]. intros w. destruct (Hp w). auto. Qed.
  Lemma dmono_bindR {A B} (p : prog W (res A)) (f : A -> prog W (res B)) : dmono p -> (forall a, dmono (f a)) -> dmono (bindR p f).
  Proof. intros Hp Hf. apply dmono_bind; [exact Hp|]. intros [a| |]; cbn; auto. Qed.
  Lemma dmono_map_err {A} f (p : prog W (res A)) : dmono p -> dmono (map_err f p).
  Proof. intros Hp. apply dmono_bind; [exact Hp|]. intros [a| |]; exact Logic.I. Qed.
  Lemma dmono_io {A} (p : prog S A) : dmono (on_io p : prog W A).
  Proof.
    induction p as [a|X f k IH]; [exact Logic.I|]. cbn [on_io dmono]. intros w. destruct (f (w_io w)) as [x s]. cbn [fst snd]. split; [cbn; lia|apply IH].
  Qed.
  Lemma dmono_get_bytes n : dmono (get_bytes e n : prog W _).
  Proof. intros w. split; [cbn; lia|exact Logic.I]. Qed.
  Lemma dmono_enc kek pt aad : dmono (aes_enc e kek pt aad : prog W _).
  Proof.
    unfold aes_enc. apply dmono_bindR; [apply dmono_get_bytes|intros key]. apply dmono_bindR; [apply dmono_get_bytes|intros nonce].
    apply dmono_bindR; [exact Logic.I|intros ct]. apply dmono_bindR; [exact Logic.I|intros wk]. apply dmono_bind; [|intros; exact Logic.I].
    intros w. split; [cbn; lia|exact Logic.I].
  Qed.
  Lemma new_user_draws k scopes (w : W) : (w_draws w < w_draws (snd (run (sa_aes e io k (SNewUser scopes)) w)))%nat.
  Proof.
    unfold sa_aes. cbn [sa_do]. rewrite D1Refine.run_ret_map. unfold sa_new_user, new_v4, get_bytes, bindR, act. cbn [bind run].
    assert (H : forall (p : prog W (res (bytes * bytes))) (w1 : W), w_draws w1 = (w_draws w + 1)%nat -> dmono p -> forall r w2, run p w1 = (r, w2) -> (w_draws w < w_draws w2)%nat).
    { intros p w1 E D r w2 Er. pose proof (dmono_run p w1 D) as L. rewrite Er in L. cbn [snd] in L. lia. }
    match goal with |- context [run ?p ?w1] => destruct (run p w1) as [r w2] eqn:Er; refine (H p w1 eq_refl _ r w2 Er) end.
    destruct (draw e (w_draws w) 16) as [b| |]; [|exact Logic.I..]. cbn [bind]. apply dmono_bindR.
    { unfold new_user. apply dmono_bindR; [|intros [? ?]; exact Logic.I]. unfold generate_password.
      apply dmono_bindR; [apply dmono_get_bytes|intros]. apply dmono_bindR; [apply dmono_get_bytes|intros; exact Logic.I]. }
    intros [u pwd]. apply dmono_bindR; [|intros; exact Logic.I]. unfold put_user. apply dmono_bindR.
    { unfold user_seal, encrypt_json. apply dmono_bindR; [apply dmono_enc|intros [? ?]; exact Logic.I]. }
    intros su. apply dmono_map_err, dmono_io.
  Qed.
End Draws.

Definition u1 : bytes := uuid_text (uuid_v4 (repeat x00 16)).
Definition u2 : bytes := uuid_text (uuid_v4 (repeat x01 16)).
Lemma u12 : u1 <> u2.
Proof. vm_compute. discriminate. Qed.
Lemma calls_fine c d tok uid exp : (forall l, c = SNewUser l \/ c = SNewGroup tok l -> Forall (fun s => s < 2 ^ 64) l) -> says d tok uid exp ->
  match c with SAddUser t _ _ | SRemoveUser t _ _ | SDeleteUser t _ | SNewGroup t _ | SGetIdentity t => t = tok | _ => True end -> sa_call_wf c /\ ~ suspicious c d.
Proof.
  intros Hl Hs. destruct c; cbn [sa_call_wf suspicious]; intros E; subst; (split; auto); intros N; eapply N; eauto.
Qed.
Lemma all_lt : Forall (fun s => s < 2 ^ 64) [ScopeAll].
Proof. constructor; [reflexivity|constructor]. Qed.

(** Two users, both logged in. *)
Lemma demo_users : exists x1 x2 x3 x4 p1 p2 t1 t2 d w a1 a2,
  reach [mkSaEvent x1 (SNewUser [ScopeAll]) (Ok (SRUser u1 p1)); mkSaEvent x2 (SNewUser [ScopeAll]) (Ok (SRUser u2 p2));
         mkSaEvent x3 (SLogin u1 p1) (Ok (SRToken t1 (time_unix T1))); mkSaEvent x4 (SLogin u2 p2) (Ok (SRToken t2 (time_unix T1)))] d w /\
  calm x3 /\ calm x4 /\
  says d t1 u1 T1 /\ says d t2 u2 T1 /\ d_users d !! u1 = Some a1 /\ d_users d !! u2 = Some a2 /\ ac_groups a1 = ∅ /\ ac_groups a2 = ∅ /\ d_groups d = ∅ /\
  p2 ++ ac_salt a2 = ac_hash a2.
Proof.
  destruct (reach_next [] dir_empty sa_w (SNewUser [ScopeAll]) reach_start all_lt (fun X => X)) as (r1 & w1 & d1 & R1 & S1 & E1). cbn [sv_x] in S1.
  destruct (new_ok (surr sa_env sa_w (rng_failed sa_env w1)) _ _ _ _ (repeat x00 16) (calm_surr sa_w w1) ltac:(intros; apply sa_draw) eq_refl (lookup_empty _) S1) as (p1 & s1 & salt1 & -> & _ & D1). clear S1. fold u1 in R1, D1.
  destruct (reach_next _ _ _ (SNewUser [ScopeAll]) R1 all_lt (fun X => X)) as (r2 & w2 & d2 & R2 & S2 & _). cbn [sv_x] in S2.
  assert (Dr : draw sa_env (w_draws w1) 16 = Ok (repeat x01 16)).
  { pose proof (new_user_draws sa_env Mem sa_k [ScopeAll] sa_w) as L. rewrite <- E1 in L. cbn [sa_w demo_w w_draws] in L.
    destruct (w_draws w1) as [|n]; [lia|]. reflexivity. }
  assert (N1 : d_users d1 !! u2 = None). { rewrite D1. cbn [d_users set_users dir_empty]. rewrite lookup_insert_ne by exact u12. apply lookup_empty. }
  destruct (new_ok (surr sa_env w1 (rng_failed sa_env w2)) _ _ _ _ (repeat x01 16) (calm_surr w1 w2) ltac:(intros; apply sa_draw) ltac:(cbn [x_draw surr]; rewrite Nat.add_0_r; exact Dr) N1 S2) as (p2 & s2 & salt2 & -> & _ & D2). clear S2. fold u2 in R2, D2.
  set (a1 := mkAccount s1 salt1 (p1 ++ salt1) ∅) in *. set (a2 := mkAccount s2 salt2 (p2 ++ salt2) ∅) in *.
  assert (A1 : d_users d2 !! u1 = Some a1). { rewrite D2, D1. cbn [d_users set_users dir_empty]. rewrite lookup_insert_ne by (intros X; apply u12; congruence). apply lookup_insert. }
  assert (A2 : d_users d2 !! u2 = Some a2). { rewrite D2. cbn [d_users set_users]. apply lookup_insert. }
  destruct (reach_next _ _ _ (SLogin u1 p1) R2 Logic.I (fun X => X)) as (r3 & w3 & d3 & R3 & S3 & _). cbn [sv_x] in S3.
  destruct (login_ok _ _ _ _ _ _ a1 (calm_surr _ _) A1 eq_refl S3) as (t1 & -> & D3 & Y3). clear S3.
  assert (B2 : d_users d3 !! u2 = Some a2) by (rewrite D3; exact A2).
  destruct (reach_next _ _ _ (SLogin u2 p2) R3 Logic.I (fun X => X)) as (r4 & w4 & d4 & R4 & S4 & _). cbn [sv_x] in S4.
  pose proof S4 as S4'. destruct (login_ok _ _ _ _ _ _ a2 (calm_surr _ _) B2 eq_refl S4) as (t2 & -> & D4 & Y4). clear S4.
  do 8 eexists. exists d4, w4, a1, a2. split; [exact R4|]. split; [apply calm_surr|]. split; [apply calm_surr|]. split; [eapply says_step; [exact S4'|exact Y3]|]. split; [exact Y4|].
  split; [rewrite D4, D3; exact A1|]. split; [rewrite D4; exact B2|]. split; [reflexivity|]. split; [reflexivity|]. split; [|reflexivity].
  rewrite D4, D3, D2, D1. reflexivity.
Qed.

(** User 1 puts user 2 into the "group" named like user 1, and user 2 is locked out. *)
Lemma demo_lockout : exists x1 x2 x3 x4 x5 x6 x7 p1 p2 t1 t2 i,
  @observed _ unit sa_env mem_view Mem sa_k
   ([mkSaEvent x1 (SNewUser [ScopeAll]) (Ok (SRUser u1 p1)); mkSaEvent x2 (SNewUser [ScopeAll]) (Ok (SRUser u2 p2));
     mkSaEvent x3 (SLogin u1 p1) (Ok (SRToken t1 (time_unix T1))); mkSaEvent x4 (SLogin u2 p2) (Ok (SRToken t2 (time_unix T1)))] ++
    [mkSaEvent x5 (SGetIdentity t2) (Ok (SRIdentity i))] ++ [mkSaEvent x6 (SAddUser t1 u2 [u1]) (Ok SRUnit)] ++
    [mkSaEvent x7 (SGetIdentity t2) (Err EIdGroupNotFound)]) /\ i_id i = u2.
Proof.
  destruct demo_users as (x1 & x2 & x3 & x4 & p1 & p2 & t1 & t2 & d & w & a1 & a2 & R & _ & _ & Y1 & Y2 & A1 & A2 & G1 & G2 & G & _).
  destruct (reach_next _ _ _ (SGetIdentity t2) R Logic.I) as (r5 & w5 & d5 & R5 & S5 & _). { intros N. exact (N _ _ Y2). }
  cbn [sv_x] in S5. destruct S5 as (q & Rq & Er & ->). cbn [x_now surr clock sa_env] in Rq.
  destruct (resolve_ok _ _ _ _ _ (reach_unique _ _ _ R) Y2 A2 Rq) as [(i & (D1 & _) & ->)|(g & Hg & _)]; [|rewrite G2 in Hg; now apply elem_of_empty in Hg].
  subst r5. cbn [res_map] in R5.
  destruct (reach_next _ _ _ (SAddUser t1 u2 [u1]) R5 Logic.I) as (r6 & w6 & d6 & R6 & S6 & _). { intros N. exact (N _ _ Y1). }
  cbn [sv_x] in S6.
  assert (Z1 : forall g, g ∈ ac_groups a1 -> is_Some (d_groups d !! g)) by (intros g Hg; rewrite G1 in Hg; now apply elem_of_empty in Hg).
  assert (Z2 : forall g, In g [u1] -> g = u1 \/ g ∈ ac_groups a1) by (intros g [<-|[]]; now left).
  pose proof S6 as S6'.
  destruct (add_ok _ _ _ _ _ _ _ _ _ _ (calm_surr _ _) (reach_unique _ _ _ R5) Y1 A1 Z1 Z2 A2 S6) as [-> D6]. clear S6.
  destruct (reach_next _ _ _ (SGetIdentity t2) R6 Logic.I) as (r7 & w7 & d7 & R7 & S7 & _). { intros N. exact (N _ _ (says_step _ _ _ _ _ _ _ _ S6' Y2)). }
  cbn [sv_x] in S7. destruct S7 as (q & Rq7 & Er & ->). cbn [x_now surr clock sa_env] in Rq7.
  assert (A6 : d_users d6 !! u2 = Some (mkAccount (ac_scopes a2) (ac_salt a2) (ac_hash a2) (ac_groups a2 ∪ list_to_set [u1]))) by (rewrite D6; apply lookup_insert).
  destruct (resolve_ok _ _ _ _ _ (reach_unique _ _ _ R6) (says_step _ _ _ _ _ _ _ _ S6' Y2) A6 Rq7) as [(j & (_ & _ & X & _) & ->)|(g & _ & _ & ->)].
  { exfalso. destruct (X u1) as [s Es]; [cbn [ac_groups]; apply elem_of_union; right; now apply elem_of_list_to_set, elem_of_list_In; left|].
    rewrite D6 in Es. cbn [d_groups set_users] in Es. rewrite G, lookup_empty in Es. discriminate. }
  subst r7. exists x1, x2, x3, x4. do 8 eexists. split; [|exact D1]. rewrite !app_assoc. eapply reach_observed. exact R7.
Qed.

(** A history with a group, a password change and a second login. *)
Lemma demo_life_reach : exists x1 x2 x3 x4 x5 x6 x7 x8 x9 p1 p2 p3 t1 t2 t3 gid i d w,
  reach
   ([mkSaEvent x1 (SNewUser [ScopeAll]) (Ok (SRUser u1 p1)); mkSaEvent x2 (SNewUser [ScopeAll]) (Ok (SRUser u2 p2));
     mkSaEvent x3 (SLogin u1 p1) (Ok (SRToken t1 (time_unix T1))); mkSaEvent x4 (SLogin u2 p2) (Ok (SRToken t2 (time_unix T1)))] ++
    [mkSaEvent x5 (SNewGroup t1 [ScopeAll]) (Ok (SRGroup gid))] ++ [mkSaEvent x6 (SAddUser t1 u2 [gid]) (Ok SRUnit)] ++
    [mkSaEvent x7 (SGetIdentity t2) (Ok (SRIdentity i))] ++ [mkSaEvent x8 (SChangePassword u2 p2) (Ok (SRPassword p3))] ++
    [mkSaEvent x9 (SLogin u2 p3) (Ok (SRToken t3 (time_unix T1)))]) d w /\
  i_id i = u2 /\ is_Some (i_groups i !! gid) /\ calm x4 /\ calm x7 /\ calm x9.
Proof.
  destruct demo_users as (x1 & x2 & x3 & x4 & p1 & p2 & t1 & t2 & d & w & a1 & a2 & R & _ & C4 & Y1 & Y2 & A1 & A2 & G1 & G2 & G & K2).
  destruct (reach_next _ _ _ (SNewGroup t1 [ScopeAll]) R all_lt) as (r5 & w5 & d5 & R5 & S5 & _). { intros N. exact (N _ _ Y1). }
  cbn [sv_x] in S5.
  assert (Z1 : forall g, g ∈ ac_groups a1 -> is_Some (d_groups d !! g)) by (intros g Hg; rewrite G1 in Hg; now apply elem_of_empty in Hg).
  destruct (sa_draw (w_draws w) 16) as [b Hb].
  assert (Gb : d_groups d !! uuid_text (uuid_v4 b) = None) by (rewrite G; apply lookup_empty).
  pose proof S5 as S5'.
  destruct (group_ok (surr sa_env w (rng_failed sa_env w5)) _ _ _ _ _ _ _ b (calm_surr w w5) (reach_unique _ _ _ R) Y1 A1 Z1 ltac:(cbn [x_draw surr]; rewrite Nat.add_0_r; exact Hb) Gb S5) as (s & -> & _ & D5). clear S5.
  set (gid := uuid_text (uuid_v4 b)) in *.
  set (a1' := mkAccount (ac_scopes a1) (ac_salt a1) (ac_hash a1) (ac_groups a1 ∪ {[gid]})) in *.
  assert (B1 : d_users d5 !! u1 = Some a1') by (rewrite D5; apply lookup_insert).
  assert (B2 : d_users d5 !! u2 = Some a2) by (rewrite D5; cbn [d_users]; rewrite lookup_insert_ne by exact u12; exact A2).
  assert (Bg : d_groups d5 !! gid = Some s) by (rewrite D5; apply lookup_insert).
  destruct (reach_next _ _ _ (SAddUser t1 u2 [gid]) R5 Logic.I) as (r6 & w6 & d6 & R6 & S6 & _). { intros N. exact (N _ _ (says_step _ _ _ _ _ _ _ _ S5' Y1)). }
  cbn [sv_x] in S6.
  assert (Z5 : forall g, g ∈ ac_groups a1' -> is_Some (d_groups d5 !! g)).
  { intros g Hg. cbn [ac_groups a1'] in Hg. rewrite G1 in Hg. apply elem_of_union in Hg as [Hg|Hg]; [now apply elem_of_empty in Hg|]. apply elem_of_singleton in Hg as ->. eauto. }
  assert (Z6 : forall g, In g [gid] -> g = u1 \/ g ∈ ac_groups a1').
  { intros g [<-|[]]. right. cbn [ac_groups a1']. apply elem_of_union. right. now apply elem_of_singleton. }
  pose proof S6 as S6'.
  destruct (add_ok _ _ _ _ _ _ _ _ _ _ (calm_surr _ _) (reach_unique _ _ _ R5) (says_step _ _ _ _ _ _ _ _ S5' Y1) B1 Z5 Z6 B2 S6) as [-> D6]. clear S6.
  set (a2' := mkAccount (ac_scopes a2) (ac_salt a2) (ac_hash a2) (ac_groups a2 ∪ list_to_set [gid])) in *.
  assert (B6 : d_users d6 !! u2 = Some a2') by (rewrite D6; apply lookup_insert).
  assert (Y6 : says d6 t2 u2 T1) by exact (says_step _ _ _ _ _ _ _ _ S6' (says_step _ _ _ _ _ _ _ _ S5' Y2)).
  assert (Hin : gid ∈ ac_groups a2') by (cbn [ac_groups a2']; apply elem_of_union; right; now apply elem_of_list_to_set, elem_of_list_In; left).
  destruct (reach_next _ _ _ (SGetIdentity t2) R6 Logic.I) as (r7 & w7 & d7 & R7 & S7 & _). { intros N. exact (N _ _ Y6). }
  cbn [sv_x] in S7. destruct S7 as (q & Rq & Er & ->). cbn [x_now surr clock sa_env] in Rq.
  destruct (resolve_ok _ _ _ _ _ (reach_unique _ _ _ R6) Y6 B6 Rq) as [(i & (E1 & E2 & E3 & E4) & ->)|(g & Hg & Hn & _)].
  2:{ exfalso. cbn [ac_groups a2'] in Hg. rewrite G2 in Hg. apply elem_of_union in Hg as [Hg|Hg]; [now apply elem_of_empty in Hg|]. apply elem_of_list_to_set, elem_of_list_In in Hg as [<-|[]].
      rewrite D6 in Hn. cbn [d_groups set_users] in Hn. congruence. }
  subst r7. cbn [res_map] in R7.
  destruct (reach_next _ _ _ (SChangePassword u2 p2) R7 Logic.I (fun X => X)) as (r8 & w8 & d8 & R8 & S8 & _). cbn [sv_x] in S8.
  destruct (change_ok _ _ _ _ _ _ a2' (calm_surr _ _) B6 K2 S8) as (p3 & salt3 & -> & D8). clear S8.
  assert (B8 : d_users d8 !! u2 = Some (mkAccount (ac_scopes a2') salt3 (p3 ++ salt3) (ac_groups a2'))) by (rewrite D8; apply lookup_insert).
  destruct (reach_next _ _ _ (SLogin u2 p3) R8 Logic.I (fun X => X)) as (r9 & w9 & d9 & R9 & S9 & _). cbn [sv_x] in S9.
  destruct (login_ok _ _ _ _ _ _ _ (calm_surr _ _) B8 eq_refl S9) as (t3 & -> & _ & _).
  exists x1, x2, x3, x4. do 15 eexists. split; [rewrite !app_assoc; exact R9|].
  split; [exact E1|]. split; [|split; [exact C4|split; apply calm_surr]].
  destruct (E3 gid Hin) as [s' Es']. exists s'. apply E4. auto.
Qed.

Lemma demo_life : exists x1 x2 x3 x4 x5 x6 x7 x8 x9 p1 p2 p3 t1 t2 t3 gid i,
  @observed _ unit sa_env mem_view Mem sa_k
   ([mkSaEvent x1 (SNewUser [ScopeAll]) (Ok (SRUser u1 p1)); mkSaEvent x2 (SNewUser [ScopeAll]) (Ok (SRUser u2 p2));
     mkSaEvent x3 (SLogin u1 p1) (Ok (SRToken t1 (time_unix T1))); mkSaEvent x4 (SLogin u2 p2) (Ok (SRToken t2 (time_unix T1)))] ++
    [mkSaEvent x5 (SNewGroup t1 [ScopeAll]) (Ok (SRGroup gid))] ++ [mkSaEvent x6 (SAddUser t1 u2 [gid]) (Ok SRUnit)] ++
    [mkSaEvent x7 (SGetIdentity t2) (Ok (SRIdentity i))] ++ [mkSaEvent x8 (SChangePassword u2 p2) (Ok (SRPassword p3))] ++
    [mkSaEvent x9 (SLogin u2 p3) (Ok (SRToken t3 (time_unix T1)))]) /\
  i_id i = u2 /\ is_Some (i_groups i !! gid) /\ calm x4 /\ calm x7 /\ calm x9.
Proof.
  destruct demo_life_reach as (x1 & x2 & x3 & x4 & x5 & x6 & x7 & x8 & x9 & p1 & p2 & p3 & t1 & t2 & t3 & gid & i & d & w & R & H).
  exists x1, x2, x3, x4, x5, x6, x7, x8, x9, p1, p2, p3, t1, t2, t3, gid, i. split; [eapply reach_observed; exact R|exact H].
Qed.

(** The in-memory store of the two users, with their records exchanged. *)
Lemma demo_swap : exists x1 x2 x3 x4 p1 p2 t1 t2 d w w' a1 a2,
  let evs := [mkSaEvent x1 (SNewUser [ScopeAll]) (Ok (SRUser u1 p1)); mkSaEvent x2 (SNewUser [ScopeAll]) (Ok (SRUser u2 p2));
         mkSaEvent x3 (SLogin u1 p1) (Ok (SRToken t1 (time_unix T1))); mkSaEvent x4 (SLogin u2 p2) (Ok (SRToken t2 (time_unix T1)))] in
  sa_fresh mem_view sa_k sa_w /\ sa_run sa_env Mem sa_k (sa_elsewhere mem_view sa_k) sa_w evs w /\ w_forged w = false /\
  sa_history dir_empty evs d /\ d_users d !! u1 = Some a1 /\ d_users d !! u2 = Some a2 /\ u1 <> u2 /\ swapped mem_view w w' u1 u2 /\
  pwhash sa_env p2 (ac_salt a2) = ac_hash a2 /\ ~ rng_failed sa_env (snd (run (sa_aes sa_env Mem sa_k (SLogin u1 p2)) w')) /\
  time_text (time_add (clock sa_env (w_ticks w')) 3600) <> None.
Proof.
  destruct demo_users as (x1 & x2 & x3 & x4 & p1 & p2 & t1 & t2 & d & w & a1 & a2 & R & _ & _ & Y1 & Y2 & A1 & A2 & G1 & G2 & G & K).
  assert (X : exists w' : SW, swapped mem_view w w' u1 u2).
  { destruct R as (_ & _ & _ & m & (Hm1 & Hm2) & (Ru & _) & _).
    pose proof (Ru u1) as R1. rewrite A1 in R1. destruct R1 as (b1 & B1 & _). pose proof (Ru u2) as R2. rewrite A2 in R2. destruct R2 as (b2 & B2 & _).
    exists (set_io w (<[mem_key u2 DataTypeSealedUser := b1]> (<[mem_key u1 DataTypeSealedUser := b2]> (w_io w)))).
    split; [exact Logic.I|]. split; [|repeat split]. cbn [w_io set_io v_map mem_view]. intros id dt.
    rewrite (look_insert mem_key mem_key_inj) by reflexivity. cbn [v_map mem_view] in Hm2. rewrite !Hm2, B1, B2. unfold upd.
    destruct (bytes_eqb id u2 && (dt =? DataTypeSealedUser)) eqn:E; [reflexivity|].
    rewrite (look_insert mem_key mem_key_inj) by reflexivity. reflexivity. }
  destruct X as [w' X]. exists x1, x2, x3, x4, p1, p2, t1, t2, d, w, w', a1, a2. cbn zeta.
  destruct R as (R1 & R2 & R3). split; [exact sa_w_fresh|]. split; [eapply run_between; [|exact R1]; intros ? ? []|]. split; [apply R3|]. split; [exact R2|]. split; [exact A1|]. split; [exact A2|].
  split; [exact u12|]. split; [exact X|]. split; [exact K|]. split; [apply sa_rng|apply T1_text].
Qed.

(** A history that leaves a group. *)
Lemma demo_group : exists evs d w gid s, reach evs d w /\ d_groups d !! gid = Some s /\ length evs = 5%nat.
Proof.
  destruct demo_users as (x1 & x2 & x3 & x4 & p1 & p2 & t1 & t2 & d & w & a1 & a2 & R & _ & C4 & Y1 & Y2 & A1 & A2 & G1 & G2 & G & K2).
  destruct (reach_next _ _ _ (SNewGroup t1 [ScopeAll]) R all_lt) as (r5 & w5 & d5 & R5 & S5 & _). { intros N. exact (N _ _ Y1). }
  cbn [sv_x] in S5.
  assert (Z1 : forall g, g ∈ ac_groups a1 -> is_Some (d_groups d !! g)) by (intros g Hg; rewrite G1 in Hg; now apply elem_of_empty in Hg).
  destruct (sa_draw (w_draws w) 16) as [b Hb].
  assert (Gb : d_groups d !! uuid_text (uuid_v4 b) = None) by (rewrite G; apply lookup_empty).
  destruct (group_ok (surr sa_env w (rng_failed sa_env w5)) _ _ _ _ _ _ _ b (calm_surr w w5) (reach_unique _ _ _ R) Y1 A1 Z1 ltac:(cbn [x_draw surr]; rewrite Nat.add_0_r; exact Hb) Gb S5) as (s & -> & _ & D5).
  do 5 eexists. split; [exact R5|]. split; [rewrite D5; apply lookup_insert|reflexivity].
Qed.
End Keys.
Notation SW := (world (gmap bytes bytes) unit).
Notation T0 := (mkT 0 0 0).
Notation T1 := (time_add T0 3600).
(** Three different keys. *)
Definition sa_k : sa_keys := mkSaKeys (repeat x01 32) (repeat x02 32) (repeat x03 32).
