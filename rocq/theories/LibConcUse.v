(** What C74 means for callers: revocation and deletion that have been answered are in force for every call
    made afterwards, whatever else is going on. *)
From Coq Require Import ZifyN ZifyNat.
From stdpp Require Import gmap.
From Verif Require Import Bytes Go Uuid Time World Id D1 Spec SpecProofs Standalone StandaloneSpec StandaloneHist Index IndexSpec Lib LibSpec LibCor LibConcSpec LibConcUseSpec.
Local Open Scope nat_scope.

(** ** Histories of halves *)
Lemma hh_app a hs1 hs2 b : half_history a (hs1 ++ hs2) b -> exists m, half_history a hs1 m /\ half_history m hs2 b.
Proof.
  revert a. induction hs1 as [|h hs1 IH]; intros a H; cbn [app] in H; [exists a; split; [constructor|exact H]|].
  inversion H as [|? ? s1 ? ? Hs Hr]; subst. apply IH in Hr as (m & H1 & H2). exists m. split; [econstructor; eauto|exact H2].
Qed.
Lemma hh_mid a hs1 h hs2 b : half_history a (hs1 ++ h :: hs2) b -> exists s s', half_history a hs1 s /\ half_step h s s' /\ half_history s' hs2 b.
Proof. intros H. apply hh_app in H as (m & H1 & H2). inversion H2 as [|? ? s1 ? ? Hs Hr]; subst. eauto. Qed.
Lemma hh_inv (P : lib_state -> Prop) s hs s' : half_history s hs s' -> P s -> (forall h a b, In h hs -> half_step h a b -> P a -> P b) -> P s'.
Proof. intros H. induction H as [s|s h s1 hs s2 Hs _ IH]; intros H0 Hp; [exact H0|]. apply IH; [eapply Hp; [now left|exact Hs|exact H0]|]. intros. eapply Hp; [right|..]; eauto. Qed.
Definition dir_events (hs : list half) : list sa_event := flat_map (fun h => match h with HIdentity _ ev => [ev] | _ => [] end) hs.
Lemma half_dir s hs s' : half_history s hs s' -> sa_history (ls_dir s) (dir_events hs) (ls_dir s').
Proof.
  intros H. induction H as [s|s h s1 hs s2 Hs _ IH]; [constructor|]. destruct h; cbn [dir_events flat_map app half_step] in *.
  - econstructor; [apply Hs|exact IH].
  - destruct Hs as [_ ->]. exact IH.
  - destruct Hs as (_ & E & _). now rewrite <- E.
  - destruct Hs as (_ & E & _). now rewrite <- E.
Qed.
Lemma half_unique hs s : half_history lib_empty hs s -> unique (ls_dir s).
Proof. intros H. eapply unique_history; [apply half_dir, H|apply unique_empty]. Qed.
(** A half that is no identity call leaves the directory. *)
Lemma half_dir_step h a b : half_step h a b -> (exists n ev, h = HIdentity n ev /\ sa_step (sv_x ev) (sv_call ev) (ls_dir a) (sv_reply ev) (ls_dir b)) \/ ls_dir b = ls_dir a.
Proof. destruct h; cbn [half_step]; [intros (H & _); left; eauto|intros (_ & ->); now right|intros (_ & E & _); now right..]. Qed.

(** ** The order of calls *)
Section Order.
  Context (e : env) (tr : list lib_obs) (hs : list half) (s : lib_state) (H : lib_acts e tr hs s).
  Lemma one_half h h' : In h hs -> In h' hs -> half_call h = half_call h' -> is_lookup h = is_lookup h' -> h = h'.
  Proof.
    destruct H as (_ & ND & _). clear H. induction hs as [|x l IH]; intros H1 H2 E1 E2; [destruct H1|]. cbn [map] in ND. apply List.NoDup_cons_iff in ND as [N1 N2].
    destruct H1 as [->|H1], H2 as [->|H2]; [reflexivity| | |auto]; exfalso; apply N1.
    - rewrite E1, E2. now apply (in_map (fun h => (half_call h, is_lookup h))).
    - rewrite <- E1, <- E2. now apply (in_map (fun h => (half_call h, is_lookup h))).
  Qed.
  Lemma reply_acts h r : half_reply h = Some r -> is_lookup h = false.
  Proof. now destruct h. Qed.
  (** What was answered before a call was made has acted before anything of it. *)
  Lemma comes_before tr1 tr2 : tr = tr1 ++ tr2 -> forall n r, In (LReply n r) tr1 -> forall pre h post, hs = pre ++ h :: post -> length (lib_calls tr1) <= half_call h ->
    exists h', In h' pre /\ half_call h' = n /\ half_reply h' = Some r.
  Proof.
    intros E n r Hn pre h post Eh Hlt. destruct H as (_ & _ & _ & _ & _ & H6). destruct (H6 tr1 tr2 E) as (hs1 & hs2 & E1 & R1 & R2).
    destruct (R1 n r Hn) as (h' & Hin & Hr). exists h'. split; [|exact Hr]. rewrite E1 in Eh. apply app_eq_app in Eh as (l & [[-> E3]|[-> E3]]).
    - destruct l as [|x l]; [rewrite app_nil_r in Hin; exact Hin|]. cbn [app] in E3. injection E3 as <- _. exfalso. specialize (R2 h). rewrite in_app_iff in R2. specialize (R2 (or_intror (or_introl eq_refl))). lia.
    - apply in_app_iff. now left.
  Qed.
  (** A call made and answered before another is made. *)
  Lemma came_before c r tr0 tra c' trb : answered_call c r tr0 tra -> tr = tra ++ LCall c' :: trb -> forall pre h post, hs = pre ++ h :: post -> half_call h = length (lib_calls tra) ->
    exists pre1 h' mid, pre = pre1 ++ h' :: mid /\ half_call h' = length (lib_calls tr0) /\ half_reply h' = Some r /\ nth_error (lib_calls tr) (half_call h') = Some c /\
      forall n r1, In (LReply n r1) tr0 -> exists h1, In h1 pre1 /\ half_call h1 = n /\ half_reply h1 = Some r1.
  Proof.
    intros (tr2 & -> & Hr) E pre h post Eh Hc. destruct (comes_before _ _ E (length (lib_calls tr0)) r ltac:(apply in_app_iff; right; right; exact Hr) pre h post Eh ltac:(lia)) as (h' & Hin & H1 & H2).
    apply in_split in Hin as (pre1 & mid & ->). exists pre1, h', mid. split; [reflexivity|]. split; [exact H1|]. split; [exact H2|]. split.
    - rewrite H1, E. rewrite <- app_assoc. clear. induction tr0 as [|[x|k q] tr0 IH]; cbn [app lib_calls length nth_error]; [reflexivity|exact IH|exact IH].
    - intros n r1 Hn. apply (comes_before tr0 (LCall c :: tr2 ++ LCall c' :: trb)) with (h := h') (post := mid ++ h :: post); [rewrite E, <- app_assoc; reflexivity|exact Hn| |lia].
      rewrite Eh, <- app_assoc. reflexivity.
  Qed.
  (** Calls of a settled kind do nothing of the kind after that. *)
  Lemma settled_out tr0 kind harmless pre h post : hs = pre ++ h :: post -> settled tr tr0 kind harmless ->
    (forall n r1, In (LReply n r1) tr0 -> exists h1, In h1 pre /\ half_call h1 = n /\ half_reply h1 = Some r1) ->
    forall n ev, In (HIdentity n ev) post -> kind (OnIdentity (sv_call ev)) -> harmless (LIdentity (sv_reply ev)).
  Proof.
    intros Eh Hs Hp n ev Hin Hk. pose proof H as (_ & ND & HO & _ & HR & _).
    assert (Hi : In (HIdentity n ev) hs) by (rewrite Eh; apply in_app_iff; right; now right).
    destruct (HO _ Hi) as [Hn _]. destruct (Hs n _ Hn Hk) as (r & [Hr|[Hr Hh]]).
    - exfalso. destruct (Hp n r Hr) as (h1 & A & B & C).
      assert (Eq : h1 = HIdentity n ev) by (apply one_half; [rewrite Eh; apply in_app_iff; now left|exact Hi|exact B|now rewrite (reply_acts _ _ C)]). subst h1.
      rewrite Eh in ND. rewrite map_app in ND. cbn [map] in ND. clear -ND A Hin.
      induction pre as [|x pre IH]; [destruct A|]. cbn [map app] in ND. apply List.NoDup_cons_iff in ND as [N1 N2]. destruct A as [->|A]; [|auto].
      apply N1. apply in_app_iff. right. right. now apply (in_map (fun h => (half_call h, is_lookup h)) _ (HIdentity n ev)).
    - destruct (HR n r Hr) as (h1 & A & B & C). assert (Eq : h1 = HIdentity n ev) by (apply one_half; [exact A|exact Hi|exact B|now rewrite (reply_acts _ _ C)]). subst h1.
      cbn [half_reply] in C. injection C as <-. exact Hh.
  Qed.
End Order.

Lemma nodup_split {A B} (f : A -> B) (l1 l2 : list A) x y : List.NoDup (map f (l1 ++ l2)) -> In x l1 -> In y l2 -> f x = f y -> False.
Proof.
  rewrite map_app. induction l1 as [|z l1 IH]; intros ND H1 H2 E; [destruct H1|]. cbn [map app] in ND. apply List.NoDup_cons_iff in ND as [N1 N2].
  destruct H1 as [->|H1]; [|auto]. apply N1, in_app_iff. right. rewrite E. now apply in_map.
Qed.
Lemma calls_prefix_nth tra trb n c : nth_error (lib_calls tra) n = Some c -> nth_error (lib_calls (tra ++ trb)) n = Some c.
Proof. revert n. induction tra as [|[x|k q] tra IH]; intros n H; cbn [app lib_calls] in *; [destruct n; discriminate| |auto]. destruct n; [exact H|]. cbn [nth_error] in *. auto. Qed.

Section Facts.
  Context (e : env) (tra trb : list lib_obs) (c : lib_call) (hs : list half) (s : lib_state).
  Notation tr := (tra ++ LCall c :: trb).
  Context (H : lib_acts e tr hs s).
  (** The state when something of the call happens. *)
  Context (pre : list half) (h : half) (post : list half) (Eh : hs = pre ++ h :: post) (Hc : half_call h = length (lib_calls tra)) (s1 : lib_state) (H1 : half_history lib_empty pre s1).
  Lemma in_pre h' : In h' pre -> In h' hs.
  Proof. intros K. rewrite Eh. apply in_app_iff. now left. Qed.
  (** A reply of the identity provider comes from the call. *)
  Lemma identity_half h' n r c' : In h' hs -> half_call h' = n -> half_reply h' = Some (LIdentity r) -> nth_error (lib_calls tr) n = Some (OnIdentity c') ->
    exists x, h' = HIdentity n (mkSaEvent x c' r).
  Proof.
    intros Hin <- Hr Hn. destruct H as (_ & _ & HO & _). specialize (HO _ Hin). destruct h' as [n [x c1 r1]|n x t w|n ev|n ev]; cbn in *; try discriminate.
    destruct HO as [HO _]. injection Hr as ->. exists x. f_equal. f_equal. congruence.
  Qed.
  Lemma has_token uid tok : logged_in uid tok tra -> exists exp, says (ls_dir s1) tok uid exp.
  Proof.
    intros (n & pw & t & x & Hn & Hr & Ht). destruct (comes_before e tr hs s H tra _ eq_refl n _ Hr pre h post Eh ltac:(lia)) as (h' & Hin & A & B).
    destruct (identity_half h' n _ _ (in_pre _ Hin) A B (calls_prefix_nth _ _ _ _ Hn)) as (y & ->). apply in_split in Hin as (p1 & p2 & E). rewrite E in H1.
    apply hh_mid in H1 as (a & b & _ & (Hs & _) & H2). cbn [sv_x sv_call sv_reply] in Hs.
    destruct (step_sessions _ _ _ _ _ Hs) as [E1|(uid' & pw' & t' & [= <- <-] & [= <- _] & _ & Hn1)].
    - exfalso. cbn [sa_step] in Hs. destruct (d_users (ls_dir a) !! uid); [|destruct Hs as [[=] _]].
      destruct Hs as [(_ & [=] & _)|(_ & [(_ & [=] & _)|(t' & _ & [= <- _] & E' & _)])].
      rewrite E' in E1. cbn [d_sessions add_session] in E1. apply (f_equal length) in E1. cbn in E1. lia.
    - eexists. eapply says_same; [|exact Ht]. eapply says_history; [apply half_dir, H2|]. apply Hn1. eauto.
  Qed.
  (** What was settled when some call was made, which was answered before ours was made. *)
  Lemma since c0 r0 tr0 : answered_call (OnIdentity c0) (LIdentity r0) tr0 tra ->
    exists x a b mid, sa_step x c0 (ls_dir a) r0 (ls_dir b) /\ half_history b mid s1 /\
      forall kind harmless, settled tr tr0 kind harmless -> forall n ev, In (HIdentity n ev) mid -> kind (OnIdentity (sv_call ev)) -> harmless (LIdentity (sv_reply ev)).
  Proof.
    intros Ha. destruct (came_before e tr hs s H _ _ _ _ _ _ Ha eq_refl pre h post Eh Hc) as (p1 & h' & mid & E & A & B & C & D).
    destruct (identity_half h' _ _ _ ltac:(apply in_pre; rewrite E; apply in_app_iff; right; now left) eq_refl B C) as (x & Eq). rewrite E, Eq in H1. apply hh_mid in H1 as (a & b & _ & (Hs & _) & H2). cbn [sv_x sv_call sv_reply] in Hs.
    exists x, a, b, mid. split; [exact Hs|]. split; [exact H2|]. intros kind harmless Hset n ev Hin Hk.
    eapply (settled_out e tr hs s H tr0 kind harmless p1 h' (mid ++ h :: post)); [rewrite Eh, E, <- app_assoc; reflexivity|exact Hset|exact D|apply in_app_iff; left; exact Hin|exact Hk].
  Qed.
  Lemma is_absent uid : user_deleted uid tr tra -> d_users (ls_dir s1) !! uid = None.
  Proof.
    intros (tr0 & tok & Ha & Hset). destruct (since _ _ _ Ha) as (x & a & b & mid & Hs & H2 & Hk).
    apply (hh_inv (fun s => d_users (ls_dir s) !! uid = None) _ _ _ H2).
    - destruct Hs as [(i & _ & _ & ->)|(y & _ & [=] & _)]. cbn [d_users set_users]. apply lookup_delete.
    - intros h0 a0 b0 Hin Hst Hn. destruct (half_dir_step _ _ _ Hst) as [(n & ev & -> & Hd)|E]; [|now rewrite E].
      eapply step_absent; [exact Hd| |exact Hn]. intros scopes pw [E1 E2]. refine (Hk _ _ Hset n ev Hin _ pw _); [now rewrite E1|now rewrite E2].
  Qed.
  Lemma joins_harmless uid g ev d d' : sa_step (sv_x ev) (sv_call ev) d (sv_reply ev) d' ->
    (may_join uid g (OnIdentity (sv_call ev)) -> not_joined g (LIdentity (sv_reply ev))) -> ~ joins_dir uid g (sv_call ev) (sv_reply ev).
  Proof.
    intros St K J. unfold joins_dir in J. destruct (sv_call ev) eqn:Ec; try contradiction; cbn [may_join not_joined] in K.
    - destruct (sv_reply ev) as [y|y|]; try contradiction. specialize (K J). destruct y; try contradiction. cbn [sa_step] in St.
      destruct St as [(i & _ & [(_ & [=] & _)|(_ & St)])|(z & _ & [=] & _)]. destruct (d_users d !! _); [destruct St as [(_ & [=] & _)|([=] & _)]|destruct St as [[=] _]].
    - destruct (sv_reply ev) as [y|y|]; try contradiction. destruct y; try contradiction. specialize (K Logic.I). contradiction.
  Qed.
  Lemma is_outside uid g : user_not_in uid g tr tra -> outside_group uid g (ls_dir s1).
  Proof.
    intros [(tr0 & tok & gids & Ha & Hg & Hset)|Hset].
    - destruct (since _ _ _ Ha) as (x & a & b & mid & Hs & H2 & Hk). apply (hh_inv (fun s => outside_group uid g (ls_dir s)) _ _ _ H2).
      + cbn [sa_step] in Hs. destruct Hs as [(i & _ & [(_ & [=] & _)|(_ & Hs)])|(y & _ & [=] & _)].
        destruct (d_users (ls_dir a) !! uid) as [ac|] eqn:Ea; [|destruct Hs as [[=] _]]. destruct Hs as [(_ & [=] & _)|(_ & E)].
        rewrite E. intros b0 Hb. cbn [d_users set_users] in Hb. rewrite lookup_insert in Hb. injection Hb as <-. cbn [ac_groups].
        rewrite elem_of_difference, elem_of_list_to_set, elem_of_list_In. tauto.
      + intros h0 a0 b0 Hin Hst Hn. destruct (half_dir_step _ _ _ Hst) as [(n & ev & -> & Hd)|E]; [|now rewrite E].
        eapply step_outside; [exact Hd| |exact Hn]. apply (joins_harmless uid g ev _ _ Hd). exact (Hk _ _ Hset n ev Hin).
    - apply (hh_inv (fun s => outside_group uid g (ls_dir s)) _ _ _ H1).
      + intros a Ha. cbn in Ha. rewrite lookup_empty in Ha. discriminate.
      + intros h0 a0 b0 Hin Hst Hn. destruct (half_dir_step _ _ _ Hst) as [(n & ev & -> & Hd)|E]; [|now rewrite E].
        eapply step_outside; [exact Hd| |exact Hn]. apply (joins_harmless uid g ev _ _ Hd). intros Hm. destruct H as (_ & _ & HO & _ & HR & _). destruct (HO _ (in_pre _ Hin)) as [Hn1 _].
        destruct (Hset n _ Hn1 Hm) as (r & [[]|[Hr Hh]]). destruct (HR n r Hr) as (h1 & A & B & C).
        assert (Eq : h1 = HIdentity n ev) by (apply (one_half e tr hs s H); [exact A|now apply in_pre|exact B|now rewrite (reply_acts _ _ C)]). subst h1. cbn [half_reply] in C. injection C as <-. exact Hh.
  Qed.
  Lemma list_is oid acl n : list_seen oid acl n tr tra -> is_lookup h = false -> half_call h = n -> exists o, ls_objects s1 !! oid = Some (o, acl).
  Proof.
    intros (tr0 & tok & Ha & Hm) Hl Hn. destruct (came_before e tr hs s H _ _ _ _ _ _ Ha eq_refl pre h post Eh Hc) as (p1 & h' & mid & E & A & B & C & D).
    pose proof H as (_ & ND & HO & _ & HR & _).
    assert (Hin' : In h' hs) by (apply in_pre; rewrite E; apply in_app_iff; right; now left). specialize (HO _ Hin') as Ho'.
    rewrite E in H1. apply hh_mid in H1 as (a & b & _ & Hs & H2).
    destruct h' as [m ev|m x t w|m ev|m ev]; cbn [half_reply] in B; try discriminate. injection B as B. cbn [half_of half_call] in Ho', C. destruct Ho' as [Ho' _].
    assert (Ec : ev_call ev = CGetAccessGroups tok oid) by congruence. clear Ho' C. cbn [half_step] in Hs. destruct Hs as [Hs _]. rewrite Ec, B in Hs.
    assert (H0 : exists o, ls_objects b !! oid = Some (o, acl)).
    { unfold spec_step, with_access, with_scope, refuse in Hs. destruct (o_who _) as [i|z|]; [|destruct Hs as [[=] _]..]. destruct Hs as [(_ & [=] & _)|(_ & Hs)].
      destruct (ls_objects a !! oid) as [[o a']|] eqn:Eo; [|destruct Hs as [[=] _]]. destruct Hs as [(_ & [=] & _)|(_ & [= <-] & ->)]. eauto. }
    destruct H0 as [o H0]. exists o. apply (hh_inv (fun s => ls_objects s !! oid = Some (o, acl)) _ _ _ H2 H0). intros h0 a0 b0 Hin Hst Hob.
    destruct h0 as [k ev0|k x t w|k ev0|k ev0]; cbn [half_step] in Hst; [destruct Hst as (_ & -> & _); exact Hob|destruct Hst as (_ & ->); exact Hob| |destruct Hst as (_ & _ & ->); exact Hob].
    destruct Hst as (Hst & _). destruct (decide (call_oid (ev_call ev0) = Some oid)) as [Eo|Eo]; [|eapply step_other; [exact Hst|exact Eo|exact Hob]].
    assert (Hin0 : In (HObject k ev0) hs) by (apply in_pre; rewrite E; apply in_app_iff; right; now right). destruct (HO _ Hin0) as [Hk _].
    assert (RO : only_reads (ev_call ev0) \/ ~ only_reads (ev_call ev0)) by (destruct (ev_call ev0); cbn; tauto). destruct RO as [RO|RO]; [rewrite (step_reads _ _ _ _ _ Hst RO); exact Hob|exfalso].
    destruct (decide (k = n)) as [Ek|Ek].
    - subst k. apply (nodup_split (fun h => (half_call h, is_lookup h)) pre (h :: post) (HObject n ev0) h); [rewrite <- Eh; exact ND|rewrite E; apply in_app_iff; right; now right|now left|]. cbn. now rewrite Hl, Hn.
    - destruct (Hm k _ Hk Ek Eo RO) as (r & Hr). destruct (D k r Hr) as (h1 & X & Y & Z).
      apply (nodup_split (fun h => (half_call h, is_lookup h)) p1 (HObject m ev :: mid ++ h :: post) h1 (HObject k ev0)); [rewrite Eh, E, <- app_assoc in ND; exact ND|exact X|right; apply in_app_iff; now left|].
      now rewrite Y, (reply_acts _ _ Z).
  Qed.
End Facts.

(** ** The three corollaries *)
Section Cor.
  Context (e : env) (tra trb : list lib_obs) (c : lib_call) (r : lib_reply).
  Notation tr := (tra ++ LCall c :: trb).
  Notation n := (length (lib_calls tra)).
  Context (acts : exists hs s, lib_acts e tr hs s) (Hr : In (LReply n r) trb).
  Lemma its_call : nth_error (lib_calls tr) n = Some c.
  Proof. clear. induction tra as [|[x|k q] l IH]; cbn [app lib_calls length nth_error]; [reflexivity|exact IH|exact IH]. Qed.
  (** How a call with a token goes: its own token is looked up in some state after [tra]. *)
  Lemma call_looks_up hs s tok : lib_acts e tr hs s -> lib_token c = Some tok ->
    exists h pre post, hs = pre ++ h :: post /\ half_call h = n /\ half_reply h = Some r /\
    match h with
    | HIdentity _ ev => sv_call ev = match c with OnIdentity c => c | _ => sv_call ev end /\ exists c0, c = OnIdentity c0
    | HObject _ ev => c = OnObject (ev_call ev) /\ exists x pre1 pre2, pre = pre1 ++ HLookup n x tok (o_who (ev_outside ev)) :: pre2
    | HIndex _ ev => c = OnIndex (iv_call ev) /\ exists x pre1 pre2, pre = pre1 ++ HLookup n x tok (ix_who (iv_x ev)) :: pre2
    | HLookup _ _ _ _ => False
    end.
  Proof.
    intros H Ht. pose proof H as (_ & _ & HO & HW & HR & _). destruct (HR n r) as (h & Hin & A & B); [apply in_app_iff; right; now right|].
    specialize (HO _ Hin). apply in_split in Hin as (pre & post & E). exists h, pre, post. split; [exact E|]. split; [exact A|]. split; [exact B|].
    pose proof its_call as Hn. destruct h as [m ev|m x t w|m ev|m ev]; cbn [half_call half_of half_reply half_who] in *; try discriminate; subst m; destruct HO as [HO _]; rewrite Hn in HO; injection HO as ->.
    - split; [reflexivity|eauto].
    - split; [reflexivity|]. cbn [lib_token] in Ht. destruct (HW _ _ _ tok (o_who (ev_outside ev)) E) as (x & Hx); [cbn [half_who]; now rewrite Ht|].
      cbn [half_call] in Hx. apply in_split in Hx as (p1 & p2 & ->). eauto.
    - split; [reflexivity|]. injection Ht as <-. destruct (HW _ _ _ (ix_token (iv_call ev)) (ix_who (iv_x ev)) E eq_refl) as (x & Hx).
      cbn [half_call] in Hx. apply in_split in Hx as (p1 & p2 & ->). eauto.
  Qed.
  Lemma overlap_deleted uid tok : lib_token c = Some tok -> logged_in uid tok tra -> user_deleted uid tr tra -> turned_away r.
  Proof.
    intros Ht Hl Hd. destruct acts as (hs & s & H). destruct (call_looks_up hs s tok H Ht) as (h & pre & post & E & A & B & C).
    (* at whatever point the token is looked up *)
    assert (HR : forall p1 h0 p2 s1 now q, hs = p1 ++ h0 :: p2 -> half_call h0 = n -> half_history lib_empty p1 s1 -> resolves (ls_dir s1) now tok q -> q = Err EIdUserNotFound \/ q = Err EIdNotAuthenticated).
    { intros p1 h0 p2 s1 now q E0 E1 H1 [(u & x & X & _ & Y)|[_ ->]]; [|now right]. destruct (has_token e tra trb c hs s H p1 h0 p2 E0 E1 s1 H1 uid tok Hl) as (exp & Hy).
      destruct (half_unique _ _ H1 _ _ _ _ _ Hy X) as [<- <-]. rewrite (is_absent e tra trb c hs s H p1 h0 p2 E0 E1 s1 H1 uid Hd) in Y. now left. }
    assert (HL : forall p1 x q p2, pre = p1 ++ HLookup n x tok q :: p2 -> exists y, q = Err y).
    { intros p1 x q p2 E0. pose proof H as (HH & _). rewrite E, E0, <- app_assoc in HH. cbn [app] in HH. apply hh_mid in HH as (a & b & H1 & (Hs & _) & _).
      destruct (HR p1 (HLookup n x tok q) (p2 ++ h :: post) a (x_now x) q) as [-> | ->]; eauto. rewrite E, E0, <- app_assoc. reflexivity. }
    pose proof H as (HH & _). rewrite E in HH. apply hh_mid in HH as (a & b & H1 & Hs & _).
    destruct h as [m ev|m x t w|m ev|m ev]; cbn [half_reply half_step] in *; [|contradiction| |]; injection B as <-; cbn [turned_away].
    - destruct C as (C & c0 & ->). destruct Hs as (Hs & _). rewrite C in Hs.
      assert (CA : forall r0 d' body, as_caller (sv_x ev) tok (ls_dir a) r0 d' body -> r0 = Err EIdUserNotFound \/ r0 = Err EIdNotAuthenticated).
      { intros r0 d' body [(i & X & _)|(y & X & -> & _)]; destruct (HR pre _ post a _ _ E A H1 X) as [Z|Z]; try discriminate; [left|right]; congruence. }
      destruct c0; try discriminate; injection Ht as ->; cbn [sa_step] in Hs; unfold change_membership in Hs; try (eapply CA, Hs).
      destruct Hs as (q & X & Q & _). rewrite Q. destruct (HR pre _ post a _ _ E A H1 X) as [-> | ->]; cbn; auto.
    - destruct C as (-> & x & p1 & p2 & E0). destruct (HL _ _ _ _ E0) as (y & Ey). destruct Hs as (Hs & _). unfold spec_step, with_access, with_scope, refuse in Hs. rewrite Ey in Hs.
      cbn [lib_token] in Ht. destruct (ev_call ev); cbn [call_token] in Ht; try discriminate; apply Hs.
    - destruct C as (-> & x & p1 & p2 & E0). destruct (HL _ _ _ _ E0) as (y & Ey). destruct Hs as (Hs & _). unfold ix_step, ix_allowed in Hs. rewrite Ey in Hs. apply Hs.
  Qed.
  Lemma overlap_revoked uid tok oid acl c0 r0 : c = OnObject c0 -> r = LObject r0 -> call_token c0 = Some tok -> call_oid c0 = Some oid ->
    logged_in uid tok tra -> list_seen oid acl n tr tra -> uid ∉ acl -> (forall g, g ∈ acl -> user_not_in uid g tr tra) ->
    r0 = Err ED1NotAuthenticated \/ r0 = Err ED1NotAuthorized.
  Proof.
    intros Ec Er Ht Ho Hl Hs Hu Hg. destruct acts as (hs & s & H). destruct (call_looks_up hs s tok H ltac:(rewrite Ec; exact Ht)) as (h & pre & post & E & A & B & C).
    destruct h as [m ev|m x t w|m ev|m ev]; cbn [half_reply] in B; [destruct C as (_ & c1 & C); congruence|contradiction| |destruct C; congruence].
    destruct C as (C & x & p1 & p2 & E0). assert (Eev : ev_call ev = c0) by congruence. rewrite Er in B. injection B as B. clear C.
    pose proof H as (HH & _). pose proof HH as HH'. rewrite E in HH. apply hh_mid in HH as (a & b & H1 & (St & _) & _).
    destruct (list_is e tra trb c hs s H pre _ post E A a H1 oid acl n Hs eq_refl A) as (o & Hob). rewrite Eev, B in St.
    pose proof (step_decided _ _ _ _ _ oid o acl St Ho Hob) as Hd.
    rewrite E, E0, <- app_assoc in HH'. cbn [app] in HH'. apply hh_mid in HH' as (a1 & b1 & H2 & (Hq & _) & _). set (who := o_who (ev_outside ev)) in *.
    assert (E1 : hs = p1 ++ HLookup n x tok who :: (p2 ++ HObject m ev :: post)) by (rewrite E, E0, <- app_assoc; reflexivity).
    destruct (has_token e tra trb c hs s H p1 _ _ E1 eq_refl a1 H2 uid tok Hl) as (exp & Hy). destruct who as [i|z|].
    - destruct Hd as [(_ & Hon & _)|(_ & Q & _)]; [exfalso|right; exact Q].
      destruct (who_of _ _ _ _ _ _ (half_unique _ _ H2) Hy Hq) as (ac & Ea & (D1 & D2 & D3 & D4) & _).
      destruct Hon as [[Hid _]|(g & sc & Hgs & Hacl & _)]; [congruence|]. apply D4 in Hgs as [Hgs _].
      exact (is_outside e tra trb c hs s H p1 _ _ E1 eq_refl a1 H2 uid g (Hg g Hacl) ac Ea Hgs).
    - left. apply Hd.
    - destruct Hq as [(u & y & _ & _ & X)|[_ [=]]]. destruct (d_users _ !! u); [destruct X as [(j & _ & [=])|(g & _ & _ & [=])]|discriminate].
  Qed.
  (** GetIdentity. *)
  Lemma overlap_identity uid tok g i : c = OnIdentity (SGetIdentity tok) -> r = LIdentity (Ok (SRIdentity i)) -> logged_in uid tok tra -> user_not_in uid g tr tra -> i_id i = uid /\ i_groups i !! g = None.
  Proof.
    intros Ec Er Hl Hg. destruct acts as (hs & s & H). destruct (call_looks_up hs s tok H ltac:(rewrite Ec; reflexivity)) as (h & pre & post & E & A & B & C).
    destruct h as [m ev|m x t w|m ev|m ev]; cbn [half_reply] in B; [|contradiction|destruct C; congruence..]. destruct C as (C & _). rewrite Ec in C. rewrite Er in B. injection B as B.
    pose proof H as (HH & _). rewrite E in HH. apply hh_mid in HH as (a & b & H1 & (St & _) & _). rewrite C, B in St. destruct St as (q & Hq & Q & _).
    destruct q as [j|?|]; try discriminate Q. injection Q as <-. destruct (has_token e tra trb c hs s H pre _ _ E A a H1 uid tok Hl) as (exp & Hy).
    destruct (who_of _ _ _ _ _ _ (half_unique _ _ H1) Hy Hq) as (ac & Ea & (D1 & D2 & D3 & D4) & _). split; [exact D1|].
    destruct (i_groups i !! g) as [sc|] eqn:Eg; [exfalso|reflexivity]. apply D4 in Eg as [Eg _]. exact (is_outside e tra trb c hs s H pre _ _ E A a H1 uid g Hg ac Ea Eg).
  Qed.
End Cor.
