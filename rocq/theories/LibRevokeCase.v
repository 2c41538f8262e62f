(** The run of LibRevokeDemo.v meets what C74, C75 and C76 ask for, and no order in which each call acts at one moment explains it. *)
From Coq Require Import ZifyN ZifyNat.
From stdpp Require Import gmap.
From Verif Require Import Bytes Go Json JsonProofs Uuid UuidProofs Time Types World Logic Cryptor Io IoSpec IoProofs Id Data D1 D1Proofs D1Props Spec D1Refine D1ConcSpec D1Conc Demo
  Standalone StandaloneSpec SaConcSpec StandaloneRefine StandaloneHist StandaloneDemo SaConcDemo IdAuthority History Sched Authority
  Index IndexSpec IndexConcSpec IndexOwnSpec IndexProofs IndexRefine IndexHist IndexDemo Foot Lib LibSpec LibHist LibCor LibDemo LibHonest LibHistDemo LibConcSpec LibTouch LibConcDemo LibConcUseSpec LibConcUse LibSeq LibRevokeDemo SpecProofs.
Local Open Scope bool_scope.
Local Open Scope N_scope.

Ltac find_in := solve [repeat first [left; reflexivity|right]].
Lemma revoke_orderly u1 u2 p1 p2 t1 t2 g x oid i : lib_orderly (revoke_tr u1 u2 p1 p2 t1 t2 g x oid i).
Proof.
  split.
  - intros tr1 c tr2 E n c' Hn Ho. apply before_calls_in in E.
    cbn [revoke_tr revoke_start revoke_removed revoke_deleted revoke_end id_part flat_map app id_call call_token before_calls map fst snd In] in E.
    repeat (destruct E as [E|E]; [injection E as <- <-; cbn [id_calls] in Hn; repeat (destruct n as [|n]; cbn [nth_error] in Hn; [injection Hn as <-; first [destruct (lookup_no_odds _ _ _ Ho)|eexists; find_in]|]); try discriminate Hn; destruct n; discriminate Hn|]). destruct E.
  - intros tr1 c tr2 E n c' Hn Ho. exfalso. apply lib_before_in in E.
    cbn [revoke_tr revoke_start revoke_removed revoke_deleted revoke_end app lib_before map fst snd In] in E.
    repeat (destruct E as [E|E]; [injection E as <- <-; cbn [lib_calls] in Hn; repeat (destruct n as [|n]; cbn [nth_error] in Hn; [injection Hn as <-; cbn [lib_odds] in Ho;
      first [exact Ho|destruct Ho as (_ & [([O|O] & _)|[(O & _)|(_ & O)]]); discriminate O|destruct Ho as (_ & [(_ & [O|O])|[(O & _)|(O & _)]]); discriminate O]|]); try discriminate Hn; destruct n; discriminate Hn|]). destruct E.
Qed.

Lemma revoke_case : exists u1 u2 p1 p2 t1 t2 g x oid i pool' (w' : DW), let tr := revoke_tr u1 u2 p1 p2 t1 t2 g x oid i in
  (lib_vacant mem_view demo_w /\ lib_conc ov_env mem_view Mem lib_demo 9 [] demo_w tr pool' w' /\ lib_wf tr /\ lib_orderly tr /\
  ids_differ ov_env (w_draws demo_w) (w_draws w') /\ lib_no_guess ov_env (w_draws demo_w) (w_draws w') tr /\ unforged (l_sa lib_demo) (id_part tr) /\
  N.of_nat (count_adds (index_calls (lib_calls tr))) < 2 ^ 64 /\ (count_adds (index_calls (lib_calls tr)) < 9)%nat /\
  labels_differ (l_iek lib_demo) (map ix_keyword (index_calls (lib_calls tr))) (N.of_nat (count_adds (index_calls (lib_calls tr))))) /\
  same_token t1 t1 /\ u1 <> u2 /\ u1 <> g /\ x <> u1 /\ x <> u2 /\ x <> g /\ i_id i = u1 /\ i_scopes i = ScopeAll /\ i_groups i !! g = Some ScopeAll.
Proof.
  destruct revoke_run as (u1 & u2 & p1 & p2 & t1 & t2 & g & x & oid & i & pool' & w' & H & Hd & St1 & St2 & N1 & N2 & N3 & N4 & N5 & Wo & I1 & I2 & I3). exists u1, u2, p1, p2, t1, t2, g, x, oid, i, pool', w'. cbn zeta in *.
  split; [|auto 12].
  split; [split; [exact Logic.I|]; intros id dt Hl; now apply (proj1 (proj2 demo_fresh))|]. split; [exact H|]. split; [split|].
  { intros c Hc. cbn in Hc. repeat (destruct Hc as [<-|Hc]; [first [exact Logic.I|exact all_lt]|]). destruct Hc. }
  { intros c o Hc Ho. cbn in Hc. repeat (destruct Hc as [Hc|Hc]; [first [discriminate Hc|injection Hc as <-; first [discriminate Ho|injection Ho as <-; exact Wo]]|]). destruct Hc. }
  split; [apply revoke_orderly|]. split; [apply ov_ids; exact Hd|]. split; [split|].
  { intros tr1 c tr2 j bb E _ _ Hnm. apply before_calls_in in E.
    cbn [revoke_tr revoke_start revoke_removed revoke_deleted revoke_end id_part flat_map app id_call call_token before_calls map fst snd In] in E.
    repeat (destruct E as [E|E]; [injection E as <- <-; cbn [sa_names] in Hnm; first [discriminate Hnm|injection Hnm as <-; first [exists 0%nat; left; exists p1; find_in|exists 2%nat; left; exists p2; find_in]]|]). destruct E. }
  { intros tr1 c tr2 j b E _ _ Ho. apply lib_before_in in E. cbn [revoke_tr revoke_start revoke_removed revoke_deleted revoke_end app lib_before map fst snd In] in E.
    repeat (destruct E as [E|E]; [first [discriminate E|injection E as <- <-; first [discriminate Ho|injection Ho as <-; exists 6%nat; find_in]]|]). destruct E. }
  split; [|split; [reflexivity|]; split; [cbn; lia|intros a b c c' []]].
  intros tr1 c tr2 tk E Htk _. apply before_calls_in in E.
  cbn [revoke_tr revoke_start revoke_removed revoke_deleted revoke_end id_part flat_map app id_call call_token before_calls map fst snd In] in E.
  repeat (destruct E as [E|E]; [injection E as <- <-; cbn [sa_token] in Htk; first [discriminate Htk|injection Htk as <-; first
    [exists u1, t1, 1%nat, p1, t1, (time_unix T1); split; [reflexivity|]; split; [reflexivity|]; split; [find_in|exact St1]
    |exists u2, t2, 3%nat, p2, t2, (time_unix T1); split; [reflexivity|]; split; [reflexivity|]; split; [find_in|exact St2]]]|]). destruct E.
Qed.

(** ** What C75 asks for *)
Section Conds.
  Context (u1 u2 p1 p2 t1 t2 g x : bytes) (oid : uuid) (i : identity) (N1 : u1 <> u2) (N2 : u1 <> g) (N3 : x <> u1) (St : same_token t1 t1).
  Notation tr := (revoke_tr u1 u2 p1 p2 t1 t2 g x oid i).
  Notation removed := (revoke_start u1 u2 p1 p2 t1 t2 g oid i ++ revoke_removed u1 u2 t1 t2 g x oid).
  Notation gone := (removed ++ revoke_deleted u1 t1 t2 oid).
  Lemma revoke_login : logged_in u1 t1 removed /\ logged_in u1 t1 gone.
  Proof. split; exists 1%nat, p1, t1, (time_unix T1); (split; [reflexivity|]; split; [find_in|exact St]). Qed.
  Lemma revoke_seen n : list_seen oid {[u2; g; x]} n tr removed.
  Proof.
    exists (revoke_start u1 u2 p1 p2 t1 t2 g oid i ++ firstn 5 (revoke_removed u1 u2 t1 t2 g x oid)), t2. split.
    - eexists. split; [reflexivity|]. find_in.
    - intros m c Hm _ Ho Hr. do 17 (destruct m as [|m]; cbn [nth_error revoke_tr revoke_start revoke_removed revoke_deleted revoke_end app lib_calls] in Hm; [first [discriminate Hm|injection Hm as <-; first [discriminate Ho|destruct (Hr Logic.I)|eexists; find_in]]|]).
      destruct m; discriminate Hm.
  Qed.
  Lemma revoke_not_in gid : gid ∈ ({[u2; g; x]} : gset bytes) -> user_not_in u1 gid tr removed.
  Proof.
    intros _. destruct (decide (gid = g)) as [->|Hg].
    - left. exists (revoke_start u1 u2 p1 p2 t1 t2 g oid i ++ firstn 1 (revoke_removed u1 u2 t1 t2 g x oid)), t2, [g]. split; [eexists; split; [reflexivity|find_in]|]. split; [now left|].
      intros m c Hm Hk. do 17 (destruct m as [|m]; cbn [nth_error revoke_tr revoke_start revoke_removed revoke_deleted revoke_end app lib_calls] in Hm; [first [discriminate Hm|injection Hm as <-; first [destruct Hk; fail|eexists; left; find_in]]|]).
      destruct m; discriminate Hm.
    - right. intros m c Hm Hk. do 17 (destruct m as [|m]; cbn [nth_error revoke_tr revoke_start revoke_removed revoke_deleted revoke_end app lib_calls] in Hm;
        [first [discriminate Hm|injection Hm as <-; cbn [may_join] in Hk; first [solve [destruct Hk]|solve [destruct Hk as [_ [Hk|[]]]; congruence]|exists (LIdentity (Ok (SRGroup g))); right; split; [find_in|cbn [not_joined]; congruence]]]|]).
      destruct m; discriminate Hm.
  Qed.
  Lemma revoke_deleted_ok : user_deleted u1 tr gone.
  Proof.
    exists (removed ++ firstn 2 (revoke_deleted u1 t1 t2 oid)), t2. split; [eexists; split; [reflexivity|find_in]|].
    intros m c Hm Hk. do 17 (destruct m as [|m]; cbn [nth_error revoke_tr revoke_start revoke_removed revoke_deleted revoke_end app lib_calls] in Hm; [first [discriminate Hm|injection Hm as <-; first [solve [destruct Hk]|eexists; left; find_in]]|]).
    destruct m; discriminate Hm.
  Qed.
End Conds.

(** ** No single moment will do *)
Section Moment.
  Context (tr : list lib_obs) (ds : list lib_did) (s : lib_state) (H : lib_one_moment tr ds s).
  Lemma one_did d d' : In d ds -> In d' ds -> ld_call d = ld_call d' -> d = d'.
  Proof.
    destruct H as (_ & ND & _). clear H. induction ds as [|y l IH]; intros H1 H2 E; [destruct H1|]. cbn [map] in ND. apply List.NoDup_cons_iff in ND as [M1 M2].
    destruct H1 as [->|H1], H2 as [->|H2]; [reflexivity| | |auto]; exfalso; apply M1; [rewrite E|rewrite <- E]; now apply in_map.
  Qed.
  (** What was answered before a call was made comes before it. *)
  Lemma did_before tr1 tr2 : tr = tr1 ++ tr2 -> forall n r, In (LReply n r) tr1 -> forall pre d post, ds = pre ++ d :: post -> (length (lib_calls tr1) <= ld_call d)%nat ->
    exists d', In d' pre /\ ld_call d' = n /\ lv_reply (ld_event d') = r.
  Proof.
    intros E n r Hn pre d post Ed Hlt. destruct H as (_ & _ & _ & _ & H5). destruct (H5 tr1 tr2 E) as (ds1 & ds2 & E1 & R1 & R2).
    destruct (R1 n r Hn) as (d' & Hin & Hr). exists d'. split; [|exact Hr]. rewrite E1 in Ed. apply app_eq_app in Ed as (l & [[-> E3]|[-> E3]]).
    - destruct l as [|y l]; [rewrite app_nil_r in Hin; exact Hin|]. cbn [app] in E3. injection E3 as <- _. exfalso. specialize (R2 d). rewrite in_app_iff in R2. specialize (R2 (or_intror (or_introl eq_refl))). lia.
    - apply in_app_iff. now left.
  Qed.
  Lemma did_event d n c r : In d ds -> ld_call d = n -> lv_reply (ld_event d) = r -> nth_error (lib_calls tr) n = Some c -> exists x, ld_event d = mkLibEvent x c r.
  Proof. intros Hin <- <- Hn. destruct H as (_ & _ & HO & _). specialize (HO _ Hin). destruct (ld_event d) as [x c' r'] eqn:E. cbn [lv_call lv_reply] in *. exists x. congruence. Qed.
  Lemma did_twice pre post d d' : ds = pre ++ post -> In d pre -> In d' post -> ld_call d = ld_call d' -> False.
  Proof. intros E H1 H2 E2. destruct H as (_ & ND & _). rewrite E in ND. exact (nodup_split ld_call pre post d d' ND H1 H2 E2). Qed.
End Moment.

Section NoMoment.
  Context (u1 u2 p1 p2 t1 t2 g x : bytes) (oid : uuid) (i : identity) (N1 : u1 <> u2) (N2 : u1 <> g) (N3 : x <> u1) (N4 : x <> u2) (N5 : x <> g) (St : same_token t1 t1).
  Notation tr := (revoke_tr u1 u2 p1 p2 t1 t2 g x oid i).
  Lemma no_moment ds s : ~ lib_one_moment tr ds s.
  Proof.
    intros H. pose proof H as (HH & ND & HO & HR & _).
    destruct (HR 10%nat _ ltac:(find_in)) as (d10 & I10 & C10 & R10). destruct (did_event _ _ _ H _ _ _ _ I10 C10 R10 eq_refl) as (x10 & E10).
    destruct (HR 11%nat _ ltac:(find_in)) as (d11 & I11 & C11 & R11). destruct (did_event _ _ _ H _ _ _ _ I11 C11 R11 eq_refl) as (x11 & E11).
    apply in_split in I10 as (pre & post & Ed). pose proof HH as HH'. rewrite Ed, map_app in HH'. cbn [map] in HH'. rewrite E10 in HH'. apply lh_mid in HH' as (sa & sb & Ha & Hs & _). cbn [lv_call lv_reply lv_x lib_step] in Hs.
    destruct Hs as (who & Hw & Hs & _). cbn [spec_step o_who o_rng_fails o_id call_token caller] in Hs, Hw. unfold with_access, with_scope, refuse in Hs.
    destruct who as [j|z|]; [|destruct Hs as [[=] _]..]. destruct Hs as [(_ & [=] & _)|(_ & Hs)]. destruct (ls_objects sa !! oid) as [[o acl]|] eqn:Eo; [|destruct Hs as [[=] _]].
    destruct Hs as [(_ & [=] & _)|(Hl & [= Hacl] & _)]. subst acl.
    assert (Start : forall n r, In (LReply n r) (revoke_start u1 u2 p1 p2 t1 t2 g oid i) -> exists d', In d' pre /\ ld_call d' = n /\ lv_reply (ld_event d') = r).
    { intros n r Hin. apply (did_before _ _ _ H (revoke_start u1 u2 p1 p2 t1 t2 g oid i) _ eq_refl n r Hin pre d10 post Ed). rewrite C10. cbn. lia. }
    assert (InP : forall d, In d pre -> In d ds) by (intros d Hd; rewrite Ed; apply in_app_iff; now left).
    assert (Hd : In d11 pre \/ In d11 post).
    { rewrite Ed in I11. apply in_app_iff in I11 as [I11|[I11|I11]]; [now left|subst d11; congruence|now right]. }
    destruct Hd as [Hd|Hd].
    - (* the user is no longer in the group *)
      assert (T : token_of u1 t1 (map ld_event pre)).
      { destruct (Start 1%nat _ ltac:(find_in)) as (d & D1 & D2 & D3). destruct (did_event _ _ _ H _ _ _ _ (InP _ D1) D2 D3 eq_refl) as (y & E). exists (ld_event d), p1, t1, (time_unix T1).
        split; [now apply in_map|]. rewrite E. auto. }
      destruct (token_says _ _ _ _ T Ha) as (exp & Hy). destruct (who_of _ _ _ _ _ _ (dir_unique _ _ Ha) Hy Hw) as (a & Ea & (F1 & _ & _ & F4) & _).
      destruct Hl as [[Hl _]|(g' & sc & Hg & Hin & _)]; [rewrite F1 in Hl; clear -Hl N1 N2 N3; set_solver|]. apply F4 in Hg as [Hg _].
      refine (not_in_outside u1 g' (map ld_event pre) sa _ Ha a Ea Hg). clear Hin.
      assert (J : forall d, In d ds -> joins u1 g' (ld_event d) -> ld_call d = 4%nat /\ g' = g \/ ld_call d = 5%nat /\ g' = g).
      { intros d Hi Hj. pose proof (HO _ Hi) as Hn. remember (ld_call d) as m eqn:Em. destruct (ld_event d) as [y c r] eqn:Ev. cbn [lv_call] in Hn. unfold joins in Hj. cbn [lv_call lv_reply] in Hj.
        destruct (Start 4%nat _ ltac:(find_in)) as (d4 & D1 & D2 & D3).
        do 17 (destruct m as [|m]; [cbn [nth_error revoke_tr revoke_start revoke_removed revoke_deleted revoke_end app lib_calls] in Hn; injection Hn as <-; first
          [solve [destruct Hj]
          |left; split; [reflexivity|]; rewrite (one_did _ _ _ H d d4 Hi (InP _ D1) ltac:(congruence)) in Ev; rewrite Ev in D3; cbn [lv_reply] in D3; subst r; solve [auto]
          |right; split; [reflexivity|]; destruct r as [r|r|r]; try contradiction; destruct r as [r|r|]; try contradiction; destruct Hj as [_ [Hj|[]]]; solve [auto]]|]).
        destruct m; discriminate Hn. }
      destruct (decide (g' = g)) as [->|Ng].
      + right. apply in_split in Hd as (pre1 & mid & Ep). exists (map ld_event pre1), (ld_event d11), (map ld_event mid), t2, [g]. split; [now rewrite Ep, map_app|]. rewrite E11. split; [reflexivity|]. split; [reflexivity|].
        split; [now left|]. intros ev Hin Hj. apply in_map_iff in Hin as (d & <- & Hin). assert (Hi : In d ds) by (apply InP; rewrite Ep; apply in_app_iff; right; now right).
        assert (B : forall n r, In (LReply n r) (revoke_start u1 u2 p1 p2 t1 t2 g oid i) -> ld_call d = n -> False).
        { intros n r Hr Hn. destruct (did_before _ _ _ H (revoke_start u1 u2 p1 p2 t1 t2 g oid i) _ eq_refl n r Hr pre1 d11 (mid ++ d10 :: post) ltac:(rewrite Ed, Ep, <- app_assoc; reflexivity) ltac:(rewrite C11; cbn; lia)) as (d' & D1 & D2 & _).
          apply (did_twice _ _ _ H pre1 (d11 :: mid ++ d10 :: post) d' d); [rewrite Ed, Ep, <- app_assoc; reflexivity|exact D1|right; apply in_app_iff; now left|congruence]. }
        destruct (J d Hi Hj) as [[Hn _]|[Hn _]]; eapply B; [|exact Hn| |exact Hn]; find_in.
      + left. intros ev Hin Hj. apply in_map_iff in Hin as (d & <- & Hin). destruct (J d (InP _ Hin) Hj) as [[_ ?]|[_ ?]]; contradiction.
    - (* nobody has added to the list yet *)
      assert (B : forall d, In d pre -> (ld_call d < 12)%nat).
      { intros d Hin. destruct (Nat.lt_ge_cases (ld_call d) 12) as [L|L]; [exact L|exfalso]. apply in_split in Hin as (q1 & q2 & Ep).
        destruct (did_before _ _ _ H (revoke_start u1 u2 p1 p2 t1 t2 g oid i ++ firstn 3 (revoke_removed u1 u2 t1 t2 g x oid)) _ eq_refl 11%nat (LIdentity (Ok SRUnit)) ltac:(find_in) q1 d (q2 ++ d10 :: post) ltac:(rewrite Ed, Ep, <- app_assoc; reflexivity) L) as (d' & D1 & D2 & _).
        apply (did_twice _ _ _ H pre (d10 :: post) d' d11); [exact Ed|rewrite Ep; apply in_app_iff; now left|now right|congruence]. }
      destruct (Start 7%nat _ ltac:(find_in)) as (d7 & D1 & D2 & D3). destruct (did_event _ _ _ H _ _ _ _ (InP _ D1) D2 D3 eq_refl) as (y & E7).
      assert (L : listed oid {[u2; g]} (map ld_event pre)).
      { apply in_split in D1 as (q1 & q2 & Ep). exists (map ld_event q1), (ld_event d7), (map ld_event q2), t2. split; [now rewrite Ep, map_app|]. rewrite E7. split; [reflexivity|]. split; [reflexivity|].
        intros ev c Hin Hc Ho. apply in_map_iff in Hin as (d & <- & Hin). assert (Hp : In d pre) by (rewrite Ep; apply in_app_iff; right; now right). specialize (B d Hp). pose proof (HO _ (InP _ Hp)) as Hn. rewrite Hc in Hn.
        remember (ld_call d) as m eqn:Em. clear Em.
        do 12 (destruct m as [|m]; [cbn [nth_error revoke_tr revoke_start revoke_removed revoke_deleted revoke_end app lib_calls] in Hn; first [discriminate Hn|injection Hn as <-; first [discriminate Ho|exact Logic.I]]|]). lia. }
      destruct (listed_there _ _ _ _ L Ha) as [o' Eo']. rewrite Eo in Eo'. apply (f_equal (from_option snd ∅)) in Eo'. cbn [from_option snd] in Eo'. assert (X : x ∈ ({[u2; g]} : gset bytes)) by (rewrite <- Eo'; clear; set_solver). clear -X N4 N5. set_solver.
  Qed.
End NoMoment.

Lemma revoke_facts : exists u1 u2 p1 p2 t1 t2 g x oid i pool' w',
  let removed := revoke_start u1 u2 p1 p2 t1 t2 g oid i ++ revoke_removed u1 u2 t1 t2 g x oid in
  let gone := removed ++ revoke_deleted u1 t1 t2 oid in
  let tr := revoke_tr u1 u2 p1 p2 t1 t2 g x oid i in
  (cell_storage mem_view Mem /\ entrywise mem_view Mem /\ (forall n, time_wf (clock ov_env n)) /\ ix_new (Ok demo_ix_keys) = Ok (l_iek lib_demo)) /\
  (lib_vacant mem_view demo_w /\ lib_conc ov_env mem_view Mem lib_demo 9 [] demo_w tr pool' w' /\ lib_wf tr /\ lib_orderly tr /\
  ids_differ ov_env (w_draws demo_w) (w_draws w') /\ lib_no_guess ov_env (w_draws demo_w) (w_draws w') tr /\ unforged (l_sa lib_demo) (id_part tr) /\
  N.of_nat (count_adds (index_calls (lib_calls tr))) < 2 ^ 64 /\ (count_adds (index_calls (lib_calls tr)) < 9)%nat /\
  labels_differ (l_iek lib_demo) (map ix_keyword (index_calls (lib_calls tr))) (N.of_nat (count_adds (index_calls (lib_calls tr))))) /\
  (exists trb, tr = removed ++ LCall (OnObject (CDecrypt t1 oid)) :: trb /\ In (LReply (length (lib_calls removed)) (LObject (Err ED1NotAuthorized))) trb /\
     logged_in u1 t1 removed /\ list_seen oid {[u2; g; x]} (length (lib_calls removed)) tr removed /\ u1 ∉ ({[u2; g; x]} : gset bytes) /\ forall g', g' ∈ ({[u2; g; x]} : gset bytes) -> user_not_in u1 g' tr removed) /\
  (exists trb, tr = gone ++ LCall (OnObject (CDecrypt t1 oid)) :: trb /\ In (LReply (length (lib_calls gone)) (LObject (Err ED1NotAuthenticated))) trb /\
     logged_in u1 t1 gone /\ user_deleted u1 tr gone).
Proof.
  destruct revoke_case as (u1 & u2 & p1 & p2 & t1 & t2 & g & x & oid & i & pool' & w' & H & St & N1 & N2 & N3 & N4 & N5 & _). exists u1, u2, p1, p2, t1, t2, g, x, oid, i, pool', w'. cbn zeta in *.
  split; [exact (conj D1Conc.mem_cells (conj mem_entrywise (conj ov_clock eq_refl)))|]. split; [exact H|]. destruct (revoke_login u1 u2 p1 p2 t1 t2 g x oid i St) as [L1 L2]. split.
  - eexists. split; [reflexivity|]. split; [find_in|]. split; [exact L1|]. split; [apply revoke_seen|]. split; [clear -N1 N2 N3; set_solver|]. intros g'. apply revoke_not_in.
  - eexists. split; [reflexivity|]. split; [find_in|]. split; [exact L2|]. apply revoke_deleted_ok.
Qed.
Lemma revoke_refutes : exists (L : lib) (u1 u2 p1 p2 t1 t2 g x : bytes) (oid : uuid) (i : identity) pool' w', let tr := revoke_tr u1 u2 p1 p2 t1 t2 g x oid i in
  (cell_storage mem_view Mem /\ entrywise mem_view Mem /\ (forall n, time_wf (clock ov_env n)) /\ ix_new (Ok demo_ix_keys) = Ok (l_iek L)) /\
  (lib_vacant mem_view demo_w /\ lib_conc ov_env mem_view Mem L 9 [] demo_w tr pool' w' /\ lib_wf tr /\ lib_orderly tr /\
  ids_differ ov_env (w_draws demo_w) (w_draws w') /\ lib_no_guess ov_env (w_draws demo_w) (w_draws w') tr /\ unforged (l_sa L) (id_part tr) /\
  N.of_nat (count_adds (index_calls (lib_calls tr))) < 2 ^ 64 /\ (count_adds (index_calls (lib_calls tr)) < 9)%nat /\
  labels_differ (l_iek L) (map ix_keyword (index_calls (lib_calls tr))) (N.of_nat (count_adds (index_calls (lib_calls tr))))) /\
  ~ exists ds s, lib_one_moment tr ds s.
Proof.
  destruct revoke_case as (u1 & u2 & p1 & p2 & t1 & t2 & g & x & oid & i & pool' & w' & H & St & N1 & N2 & N3 & N4 & N5 & _). exists lib_demo, u1, u2, p1, p2, t1, t2, g, x, oid, i, pool', w'. cbn zeta in *.
  split; [exact (conj D1Conc.mem_cells (conj mem_entrywise (conj ov_clock eq_refl)))|]. split; [exact H|]. intros (ds & s & M). revert M. now apply no_moment.
Qed.
