(** Overlapping calls of all three kinds: three orders merged into one. *)
From Coq Require Import ZifyN ZifyNat.
From stdpp Require Import gmap.
From Verif Require Import Bytes Go Uuid Time Types World IoSpec Id Data D1 Spec D1ConcSpec D1Conc Standalone StandaloneSpec SaConcSpec
  Index IndexSpec IndexConcSpec IndexOwnSpec Foot Lib LibSpec LibHist LibConcSpec LibTouch LibConc LibConcParts LibConcOrder.
From Verif Require SaConcAll IndexOwnAll.
Local Open Scope bool_scope.
Local Open Scope N_scope.

(** ** Lists *)
Lemma app_at {A} (a b l r : list A) h : a ++ b = l ++ h :: r -> (exists q, a = l ++ h :: q) \/ (exists q, b = q ++ h :: r /\ l = a ++ q).
Proof.
  revert l. induction a as [|y a IH]; intros l H; cbn in H; [right; exists l; auto|]. destruct l as [|z l]; cbn in H; injection H as <- H.
  - left. exists a. reflexivity.
  - destruct (IH l H) as [[q ->]|(q & -> & ->)]; [left; exists q; reflexivity|right; exists q; auto].
Qed.
Lemma cuts (R : nat -> nat -> Prop) : (forall i, exists k, R i k) -> (forall i k k', R i k -> R (Datatypes.S i) k' -> R (Datatypes.S i) (Nat.max k k')) ->
  forall n, exists K : nat -> nat, K O = O /\ (forall i, (i <= n)%nat -> R i (K (Datatypes.S i))) /\ (forall i, (K i <= K (Datatypes.S i))%nat).
Proof.
  intros H1 H2. induction n as [|n (K & K0 & K1 & K2)].
  - destruct (H1 O) as (k & Hk). exists (fun i => match i with O => O | _ => k end). split; [reflexivity|]. split.
    + intros i Hi. replace i with O by lia. exact Hk.
    + intros [|i]; lia.
  - destruct (H1 (Datatypes.S n)) as (k & Hk). set (m := Nat.max (K (Datatypes.S n)) k).
    exists (fun i => if Nat.leb i (Datatypes.S n) then K i else m). split; [exact K0|]. split.
    + intros i Hi. destruct (Nat.leb_spec (Datatypes.S i) (Datatypes.S n)) as [Hle|Hgt]; [apply K1; lia|]. replace i with (Datatypes.S n) by lia. apply H2; [apply K1; lia|exact Hk].
    + intros i. destruct (Nat.leb_spec i (Datatypes.S n)) as [Hle|Hgt], (Nat.leb_spec (Datatypes.S i) (Datatypes.S n)) as [Hle'|Hgt']; auto; try lia.
      replace i with (Datatypes.S n) by lia. subst m. lia.
Qed.
Lemma take_more {A} (l : list A) a b : (a <= b)%nat -> take b l = take a l ++ drop a (take b l).
Proof. intros H. rewrite <- (take_drop a (take b l)) at 1. f_equal. rewrite take_take. f_equal. lia. Qed.
Lemma in_take_le {A} (l : list A) a b y : (a <= b)%nat -> In y (take a l) -> In y (take b l).
Proof. intros H Hy. rewrite (take_more l a b H). apply in_app_iff. now left. Qed.
Lemma in_take {A} (l : list A) a y : In y (take a l) -> In y l.
Proof. intros H. rewrite <- (take_drop a l). apply in_app_iff. now left. Qed.
Lemma in_drop {A} (l : list A) a y : In y (drop a l) -> In y l.
Proof. intros H. rewrite <- (take_drop a l). apply in_app_iff. now right. Qed.
Lemma split_take {A} (l a b : list A) : l = a ++ b -> take (length a) l = a.
Proof. intros ->. apply take_app. Qed.
Lemma nodup_in {A} (g : A -> nat) l a b : NoDup (map g l) -> In a l -> In b l -> g a = g b -> a = b.
Proof.
  induction l as [|y l IH]; intros Hn Ha Hb E; [destruct Ha|]. inversion Hn as [|? ? H1 H2]; subst. destruct Ha as [<-|Ha], Hb as [<-|Hb]; auto.
  - exfalso. apply H1. rewrite E. now apply in_map.
  - exfalso. apply H1. rewrite <- E. now apply in_map.
Qed.
Lemma nodup_take {A} (l : list A) k : NoDup l -> NoDup (take k l).
Proof. intros H. apply NoDup_ListNoDup. apply NoDup_ListNoDup in H. rewrite <- (take_drop k l) in H. now apply NoDup_app in H. Qed.

(** ** Merging *)
Definition tag (h : half) : nat * bool := (half_call h, is_lookup h).
Definition kind (h : half) : nat := match h with HIdentity _ _ | HLookup _ _ _ _ => 0 | HObject _ _ => 1 | HIndex _ _ => 2 end.
Definition of_kind (k : nat) (h : half) : bool := Nat.eqb (kind h) k.
Lemma kind_le h : (kind h <= 2)%nat.
Proof. destruct h; cbn; lia. Qed.
Lemma filter_all k l : Forall (fun h => kind h = k) l -> List.filter (of_kind k) l = l.
Proof. unfold of_kind. induction 1 as [|h l H _ IH]; [reflexivity|]. cbn. rewrite H, Nat.eqb_refl. now f_equal. Qed.
Lemma filter_none k k' l : k <> k' -> Forall (fun h => kind h = k') l -> List.filter (of_kind k) l = [].
Proof. unfold of_kind. intros Hne. induction 1 as [|h l H _ IH]; [reflexivity|]. cbn. rewrite H. destruct (Nat.eqb_spec k' k); congruence. Qed.
Lemma forall_take {A} (Q : A -> Prop) l k : Forall Q l -> Forall Q (take k l).
Proof. apply Forall_take. Qed.

Section Merge.
  Context (A B C : list half) (KA KB KC : nat -> nat).
  Context (A0 : Forall (fun h => kind h = 0%nat) A) (B1 : Forall (fun h => kind h = 1%nat) B) (C2 : Forall (fun h => kind h = 2%nat) C).
  Context (KA0 : KA O = O) (KB0 : KB O = O) (KC0 : KC O = O).
  Context (MA : forall i, (KA i <= KA (S i))%nat) (MB : forall i, (KB i <= KB (S i))%nat) (MC : forall i, (KC i <= KC (S i))%nat).
  Definition seg (K : nat -> nat) (l : list half) (i : nat) : list half := drop (K i) (take (K (S i)) l).
  Fixpoint merged (n : nat) : list half := match n with O => [] | S i => merged i ++ seg KA A i ++ seg KB B i ++ seg KC C i end.
  Lemma seg_kind K l i k : Forall (fun h => kind h = k) l -> Forall (fun h => kind h = k) (seg K l i).
  Proof. intros H. now apply Forall_drop, Forall_take. Qed.
  Lemma filters n : List.filter (of_kind 0) (merged n) = take (KA n) A /\ List.filter (of_kind 1) (merged n) = take (KB n) B /\ List.filter (of_kind 2) (merged n) = take (KC n) C.
  Proof.
    induction n as [|i (IA & IB & IC)]; [rewrite KA0, KB0, KC0; auto|]. cbn [merged]. rewrite !filter_app, IA, IB, IC.
    rewrite (filter_all 0 _ (seg_kind KA A i 0 A0)), (filter_all 1 _ (seg_kind KB B i 1 B1)), (filter_all 2 _ (seg_kind KC C i 2 C2)).
    rewrite (filter_none 0 1 _ ltac:(lia) (seg_kind KB B i 1 B1)), (filter_none 0 2 _ ltac:(lia) (seg_kind KC C i 2 C2)), (filter_none 1 0 _ ltac:(lia) (seg_kind KA A i 0 A0)),
      (filter_none 1 2 _ ltac:(lia) (seg_kind KC C i 2 C2)), (filter_none 2 0 _ ltac:(lia) (seg_kind KA A i 0 A0)), (filter_none 2 1 _ ltac:(lia) (seg_kind KB B i 1 B1)).
    rewrite !app_nil_r. cbn [app]. unfold seg. rewrite <- !take_more by auto. auto.
  Qed.
  Lemma merged_in n h : In h (merged n) <-> In h (take (KA n) A) \/ In h (take (KB n) B) \/ In h (take (KC n) C).
  Proof.
    destruct (filters n) as (<- & <- & <-). rewrite !filter_In. unfold of_kind. split; [|tauto].
    intros H. destruct h; cbn; tauto.
  Qed.
  Lemma merged_prefix i n : (i <= n)%nat -> exists l, merged n = merged i ++ l.
  Proof.
    induction 1 as [|n _ (l & IH)]; [exists []; now rewrite app_nil_r|]. cbn [merged]. rewrite IH. eexists. rewrite <- app_assoc. reflexivity.
  Qed.
  Lemma merged_order N : (forall n h tok who, (n <= N)%nat -> In h (take (KB n) B) \/ In h (take (KC n) C) -> half_who h = Some (tok, who) -> exists y, In (HLookup (half_call h) y tok who) (take (KA n) A)) ->
    forall n, (n <= N)%nat -> forall l h r tok who, merged n = l ++ h :: r -> half_who h = Some (tok, who) -> exists y, In (HLookup (half_call h) y tok who) l.
  Proof.
    intros HO. induction n as [|i IH]; intros Hn l h r tok who E Hw; [destruct l; discriminate|]. cbn [merged] in E.
    apply app_at in E as [(q & E)|(q & E & ->)]; [apply (IH ltac:(lia) l h q tok who E Hw)|].
    assert (HA : forall z, In z (take (KA (S i)) A) -> In z (merged i) \/ In z (seg KA A i)).
    { intros z Hz. rewrite (take_more A (KA i) (KA (S i)) (MA i)) in Hz. apply in_app_iff in Hz as [Hz|Hz]; [left; apply merged_in; auto|right; exact Hz]. }
    assert (HB : forall z, In z (seg KB B i) -> In z (take (KB (S i)) B)) by (intros z; apply in_drop).
    assert (HC : forall z, In z (seg KC C i) -> In z (take (KC (S i)) C)) by (intros z; apply in_drop).
    apply app_at in E as [(q' & E)|(q' & E & ->)].
    { exfalso. pose proof (seg_kind KA A i 0 A0) as F. rewrite E in F. apply Forall_app in F as [_ F]. apply Forall_inv in F. destruct h; cbn in F, Hw; discriminate. }
    assert (Hin : In h (take (KB (S i)) B) \/ In h (take (KC (S i)) C)).
    { assert (H : In h (seg KB B i ++ seg KC C i)) by (rewrite E; apply in_app_iff; right; now left). apply in_app_iff in H as [H|H]; auto. }
    destruct (HO _ h tok who Hn Hin Hw) as (y & Hy). exists y. rewrite !in_app_iff. destruct (HA _ Hy); auto.
  Qed.
End Merge.

(** One tag, one half. *)
Lemma tags_nodup (hs : list half) : (forall h h', In h hs -> In h' hs -> tag h = tag h' -> kind h = kind h') ->
  (forall k, (k <= 2)%nat -> NoDup (map tag (List.filter (of_kind k) hs))) -> NoDup (map tag hs).
Proof.
  induction hs as [|h hs IH]; intros H1 H2; [constructor|]. cbn [map]. constructor.
  - intros Hin. apply in_map_iff in Hin as (h' & E & Hin). specialize (H2 (kind h) (kind_le h)). cbn [List.filter] in H2. unfold of_kind at 1 in H2. rewrite Nat.eqb_refl in H2.
    cbn [map] in H2. inversion H2 as [|? ? H3 _]; subst. apply H3. rewrite <- E. apply in_map. apply filter_In. split; [exact Hin|]. unfold of_kind.
    rewrite (H1 h h'); [apply Nat.eqb_refl|now left|now right|congruence].
  - apply IH; [intros; apply H1; auto; now right|]. intros k Hk. specialize (H2 k Hk). cbn [List.filter] in H2. destruct (of_kind k h); [|exact H2]. now inversion H2.
Qed.
Lemma conv_nodup {D} (f : D -> list half) (g : D -> nat) ds : (forall d, (length (f d) <= 1)%nat) ->
  (forall d d' h h', In h (f d) -> In h' (f d') -> half_call h = half_call h' -> g d = g d') -> NoDup (map g ds) -> NoDup (map tag (flat_map f ds)).
Proof.
  intros H1 H2. induction ds as [|d ds IH]; intros Hn; [constructor|]. inversion Hn as [|? ? H3 H4]; subst. cbn [flat_map]. specialize (H1 d).
  destruct (f d) as [|h [|? ?]] eqn:E; cbn in H1; [now apply IH| |lia]. cbn. constructor; [|now apply IH]. intros Hin. apply in_map_iff in Hin as (h' & E' & Hin).
  apply in_flat_map in Hin as (d' & Hd' & Hin). apply H3. apply in_map_iff. exists d'. split; [|exact Hd']. apply (H2 d' d h' h); [exact Hin|rewrite E; now left|]. unfold tag in E'. congruence.
Qed.

(** ** Histories *)
Fixpoint runA (d : directory) (hs : list half) : Prop :=
  match hs with
  | [] => True
  | HIdentity _ ev :: hs => exists d1, sa_step (sv_x ev) (sv_call ev) d (sv_reply ev) d1 /\ runA d1 hs
  | HLookup _ x tok who :: hs => StandaloneSpec.resolves d (x_now x) tok who /\ runA d hs
  | _ :: hs => runA d hs
  end.
Fixpoint runB (m : objects) (hs : list half) : Prop :=
  match hs with
  | [] => True
  | HObject _ ev :: hs => exists m1, spec_step (ev_outside ev) (ev_call ev) m (ev_reply ev) m1 /\ runB m1 hs
  | _ :: hs => runB m hs
  end.
Fixpoint runC (m : index) (hs : list half) : Prop :=
  match hs with
  | [] => True
  | HIndex _ ev :: hs => exists m1, ix_step (iv_x ev) (iv_call ev) m (iv_reply ev) m1 /\ runC m1 hs
  | _ :: hs => runC m hs
  end.
Lemma runA_filter hs : forall d, runA d (List.filter (of_kind 0) hs) -> runA d hs.
Proof. induction hs as [|h hs IH]; intros d H; [exact Logic.I|]. destruct h; cbn in *; [destruct H as (d1 & H1 & H2); eauto|destruct H; auto|auto|auto]. Qed.
Lemma runB_filter hs : forall m, runB m (List.filter (of_kind 1) hs) -> runB m hs.
Proof. induction hs as [|h hs IH]; intros m H; [exact Logic.I|]. destruct h; cbn in *; auto. destruct H as (d1 & H1 & H2); eauto. Qed.
Lemma runC_filter hs : forall m, runC m (List.filter (of_kind 2) hs) -> runC m hs.
Proof. induction hs as [|h hs IH]; intros m H; [exact Logic.I|]. destruct h; cbn in *; auto. destruct H as (d1 & H1 & H2); eauto. Qed.
Lemma runA_take hs : forall k d, runA d hs -> runA d (take k hs).
Proof. induction hs as [|h hs IH]; intros [|k] d H; try exact Logic.I. destruct h; cbn in *; [destruct H as (d1 & H1 & H2); eauto|destruct H; auto|auto|auto]. Qed.
Lemma runB_take hs : forall k m, runB m hs -> runB m (take k hs).
Proof. induction hs as [|h hs IH]; intros [|k] m H; try exact Logic.I. destruct h; cbn in *; auto. destruct H as (d1 & H1 & H2); eauto. Qed.
Lemma runC_take hs : forall k m, runC m hs -> runC m (take k hs).
Proof. induction hs as [|h hs IH]; intros [|k] m H; try exact Logic.I. destruct h; cbn in *; auto. destruct H as (d1 & H1 & H2); eauto. Qed.
Lemma joined hs : forall s, runA (ls_dir s) hs -> runB (ls_objects s) hs -> runC (ls_index s) hs -> exists s', half_history s hs s'.
Proof.
  induction hs as [|h hs IH]; intros s HA HB HC; [exists s; constructor|]. destruct s as [d m ix]. cbn [ls_dir ls_objects ls_index] in *. destruct h as [t ev|t x tok who|t ev|t ev]; cbn in HA, HB, HC.
  - destruct HA as (d1 & H1 & H2). destruct (IH (mkLibState d1 m ix) H2 HB HC) as (s' & H). exists s'. econstructor; [|exact H]. cbn. auto.
  - destruct HA as [H1 H2]. destruct (IH (mkLibState d m ix) H2 HB HC) as (s' & H). exists s'. econstructor; [|exact H]. cbn. auto.
  - destruct HB as (m1 & H1 & H2). destruct (IH (mkLibState d m1 ix) HA H2 HC) as (s' & H). exists s'. econstructor; [|exact H]. cbn. auto.
  - destruct HC as (m1 & H1 & H2). destruct (IH (mkLibState d m m1) HA HB H2) as (s' & H). exists s'. econstructor; [|exact H]. cbn. auto.
Qed.

(** ** Putting the three orders together *)
Section Final.
  Context (e : env) (x : list xobs) (Hx : xwf [] x).
  Notation cs := (xcalls x).
  Notation ownB := (ownB cs x).
  Notation ownC := (ownC cs x).
  Definition seen (i : nat) : list xobs := take i x.
  Lemma seen_split i : x = seen i ++ drop i x.
  Proof. symmetry. apply take_drop. Qed.
  Lemma partA_split c0 i : partA c0 x = partA c0 (seen i) ++ partA c0 (drop i x).
  Proof. rewrite (seen_split i) at 1. apply flat_map_app. Qed.
  Lemma seen_more i : exists y, seen (S i) = seen i ++ y.
  Proof. unfold seen. rewrite (take_more x i (S i)) by lia. eauto. Qed.
  Definition unid (r : res sa_reply) : res identity :=
    match r with Ok (SRIdentity i) => Ok i | Ok _ => Panic | Err y => Err y | Panic => Panic end.
  Lemma unid_map q : unid (res_map SRIdentity q) = q.
  Proof. destruct q; reflexivity. Qed.

  (** *** The identity provider *)
  Definition convA (d : sa_did) : list half :=
    match cs !! sd_call d with
    | Some c => match c with
        | OnIdentity _ => [HIdentity (sd_call d) (sd_event d)]
        | _ => match looks_up c with Some tok => [HLookup (sd_call d) (sv_x (sd_event d)) tok (unid (sv_reply (sd_event d)))] | None => [] end
        end
    | None => []
    end.
  Lemma convA_call d h : In h (convA d) -> half_call h = sd_call d /\ kind h = 0%nat.
  Proof.
    unfold convA. destruct (cs !! sd_call d) as [[c|c|c]|]; cbn; [destruct (call_token c); [|intros []]|..]; try (intros [<-|[]]; auto); try intros [].
  Qed.
  Lemma convA_one d : (length (convA d) <= 1)%nat.
  Proof. unfold convA. destruct (cs !! sd_call d) as [[c|c|c]|]; cbn; try lia. destruct (call_token c); cbn; lia. Qed.
  Definition RA (hA : list half) (i k : nat) : Prop :=
    (forall t r, In (XReply t (LIdentity r)) (seen i) -> exists h, In h (take k hA) /\ half_call h = t /\ half_reply h = Some (LIdentity r)) /\
    (forall t q c tok, In (XKnown t q) (seen i) -> cs !! t = Some c -> looks_up c = Some tok -> exists y, In (HLookup t y tok q) (take k hA)) /\
    (forall h, In h (take k hA) -> (half_call h < length (xcalls (seen i)))%nat).
  Lemma RA_max hA i k k' : RA hA i k -> RA hA (S i) k' -> RA hA (S i) (Nat.max k k').
  Proof.
    intros (P1 & P2 & P3) (Q1 & Q2 & Q3). assert (Hle : (k' <= Nat.max k k')%nat) by lia. split; [|split].
    - intros t r H. destruct (Q1 t r H) as (h & H1 & H2). exists h. split; [|exact H2]. eapply in_take_le; eauto.
    - intros t q c tok H1 H2 H3. destruct (Q2 t q c tok H1 H2 H3) as (y & H4). exists y. eapply in_take_le; eauto.
    - intros h H. destruct (Nat.max_dec k k') as [E|E]; rewrite E in H; [|now apply Q3]. specialize (P3 h H). destruct (seen_more i) as (y & ->). rewrite xcalls_app, app_length. lia.
  Qed.
  Section WithA.
    Context (dsA : list sa_did) (d' : directory) (LA : sa_linearizes e dir_empty (partA cs x) dsA d').
    Notation hA := (flat_map convA dsA).
    Lemma A_call d : In d dsA -> nth_error cs (sd_call d) <> None /\ (forall c, cs !! sd_call d = Some c -> sv_call (sd_event d) = id_call c) /\ SaConcSpec.outside_ok e (sv_x (sd_event d)).
    Proof.
      intros Hd. destruct LA as (_ & _ & H & _). destruct (H d Hd) as [H1 H2]. rewrite id_calls_A, nth_error_map in H1. split; [|split; [|exact H2]].
      - destruct (nth_error cs (sd_call d)); [discriminate|discriminate H1].
      - intros c Hc. rewrite nth_error_is_lookup, Hc in H1. cbn in H1. congruence.
    Qed.
    Lemma A_run : runA dir_empty hA.
    Proof.
      destruct LA as (H & _). pose proof A_call as HC. revert H HC. generalize dir_empty, d'. generalize dsA as ds. intros ds. induction ds as [|d ds IH]; intros d0 d1 H HC; [exact Logic.I|].
      inversion H as [|? ? d2 ? ? H1 H2]; subst. destruct (HC d (or_introl eq_refl)) as (K1 & K2 & _).
      assert (HR : runA d2 (flat_map convA ds)). { eapply IH; [exact H2|]. intros d3 Hd3. apply HC. now right. }
      cbn [flat_map]. unfold convA. destruct (cs !! sd_call d) as [c|] eqn:E; [|rewrite nth_error_is_lookup in K1; congruence]. specialize (K2 c eq_refl).
      assert (HL : forall tok, sv_call (sd_event d) = SGetIdentity tok -> StandaloneSpec.resolves d0 (x_now (sv_x (sd_event d))) tok (unid (sv_reply (sd_event d))) /\ d2 = d0).
      { intros tok Ht. rewrite Ht in H1. destruct H1 as (q & R1 & -> & ->). now rewrite unid_map. }
      destruct c as [c|c|c].
      - cbn [looks_up id_call] in *. destruct (call_token c) as [tok|]; destruct (HL _ K2) as [R ->]; [split; assumption|exact HR].
      - cbn [looks_up id_call] in *. destruct (HL _ K2) as [R ->]. split; assumption.
      - exists d2. split; assumption.
    Qed.
    Lemma A_kind : Forall (fun h => kind h = 0%nat) hA.
    Proof. apply Forall_forall. intros h H. apply in_flat_map in H as (d & _ & H). now apply convA_call in H. Qed.
    Lemma A_nodup : NoDup (map tag hA).
    Proof.
      apply (conv_nodup convA sd_call); [apply convA_one| |apply LA]. intros d1 d2 h h' H1 H2 E. apply convA_call in H1 as [<- _]. apply convA_call in H2 as [<- _]. exact E.
    Qed.
    Lemma A_of h : In h hA -> half_of e cs h.
    Proof.
      intros H. apply in_flat_map in H as (d & Hd & H). destruct (A_call d Hd) as (_ & K2 & K3). unfold convA in H. destruct (cs !! sd_call d) as [c|] eqn:E; [|destruct H]. specialize (K2 c eq_refl).
      destruct c as [c|c|c]; [destruct (looks_up (OnObject c)) as [tok|] eqn:El; [|destruct H]|..]; destruct H as [<-|[]]; cbn [half_of]; rewrite nth_error_is_lookup, E; (split; [|exact K3]); eauto.
      cbn in K2. now rewrite K2.
    Qed.
    Lemma A_cut i : exists k, RA hA i k.
    Proof.
      destruct LA as (_ & L2 & _ & L4 & L5). destruct (L5 (partA cs (seen i)) (partA cs (drop i x))) as (ds1 & ds2 & E & D1 & D2).
      { unfold partA. rewrite <- flat_map_app. now rewrite <- seen_split. }
      assert (Hh : hA = flat_map convA ds1 ++ flat_map convA ds2) by now rewrite E, flat_map_app.
      (* the event of a call that was answered in this part *)
      assert (HD : forall t r, In (IReply t r) (partA cs (seen i)) -> exists d, In d ds1 /\ sd_call d = t /\ sv_reply (sd_event d) = r).
      { intros t r H. pose proof (D1 t r H) as H1. apply in_map_iff in H1 as (d & <- & Hd). destruct (L4 (sd_call d) r) as (d2 & M1 & M2 & M3).
        { rewrite (partA_split _ i). apply in_app_iff. left. exact H. }
        exists d. split; [exact Hd|]. split; [reflexivity|]. replace d with d2; [exact M3|]. apply (nodup_in sd_call dsA); auto. rewrite E. apply in_app_iff. now left. }
      exists (length (flat_map convA ds1)). unfold RA. rewrite (split_take _ _ _ Hh). split; [|split].
      - intros t r H. destruct (HD t r) as (d & Hd & <- & <-); [apply in_A; now left|]. apply in_split in H as (x1 & x2 & E1).
        assert (Hz : xok x1 (XReply (sd_call d) (LIdentity (sv_reply (sd_event d))))). { apply (ok_prefix x Hx x1 _ (x2 ++ drop i x)). rewrite (seen_split i) at 1. rewrite E1, <- app_assoc. reflexivity. }
        destruct Hz as (c & Hz). assert (Hc : cs !! sd_call d = Some (OnIdentity c)).
        { apply (calls_prefix x Hx x1 (XReply (sd_call d) (LIdentity (sv_reply (sd_event d))) :: x2 ++ drop i x)); [|exact Hz]. rewrite (seen_split i) at 1. rewrite E1, <- app_assoc. reflexivity. }
        exists (HIdentity (sd_call d) (sd_event d)). split; [|auto]. apply in_flat_map. exists d. split; [exact Hd|]. unfold convA. rewrite Hc. now left.
      - intros t q c tok H1 H2 H3. destruct (HD t (res_map SRIdentity q)) as (d & Hd & <- & Er); [apply in_A; right; eauto 10|].
        exists (sv_x (sd_event d)). apply in_flat_map. exists d. split; [exact Hd|]. unfold convA. rewrite H2. destruct c as [c|c|c]; [| |discriminate H3]; rewrite H3, Er, unid_map; now left.
      - intros h H. apply in_flat_map in H as (d & Hd & H). apply convA_call in H as [-> _]. rewrite <- (map_length id_call), <- (id_calls_A cs). apply D2. now apply in_map.
    Qed.
  End WithA.

  (** *** Objects *)
  Definition who (tok : bytes) (r : res identity) : Prop := r = tbl x (length tok).
  Definition convB (d : d1_did) : list half :=
    match ownB !! dn_call d with
    | Some t => match cs !! t with Some (OnObject c) => [HObject t (mkEvent (ev_outside (dn_event d)) c (ev_reply (dn_event d)))] | _ => [] end
    | None => []
    end.
  Lemma convB_call d h : In h (convB d) -> ownB !! dn_call d = Some (half_call h) /\ kind h = 1%nat.
  Proof. unfold convB. destruct (ownB !! dn_call d) as [t|]; [|intros []]. destruct (cs !! t) as [[c|c|c]|]; try intros []; [subst; auto|contradiction]. Qed.
  Lemma convB_one d : (length (convB d) <= 1)%nat.
  Proof. unfold convB. destruct (ownB !! dn_call d) as [t|]; cbn; [|lia]. destruct (cs !! t) as [[c|c|c]|]; cbn; lia. Qed.
  Definition RB (hB : list half) (i k : nat) : Prop :=
    (forall t r, In (XReply t (LObject r)) (seen i) -> exists h, In h (take k hB) /\ half_call h = t /\ half_reply h = Some (LObject r)) /\
    (forall h, In h (take k hB) -> In (half_call h) (known (seen i))).
  Lemma RB_max hB i k k' : RB hB i k -> RB hB (S i) k' -> RB hB (S i) (Nat.max k k').
  Proof.
    intros (P1 & P3) (Q1 & Q3). assert (Hle : (k' <= Nat.max k k')%nat) by lia. split.
    - intros t r H. destruct (Q1 t r H) as (h & H1 & H2). exists h. split; [|exact H2]. eapply in_take_le; eauto.
    - intros h H. destruct (Nat.max_dec k k') as [E|E]; rewrite E in H; [|now apply Q3]. specialize (P3 h H). destruct (seen_more i) as (y & ->). rewrite known_app. apply in_app_iff. now left.
  Qed.
  Lemma retok_step y t c m r m' : spec_step y (retok t c) m r m' -> spec_step y c m r m'.
  Proof. destruct c; exact (fun H => H). Qed.
  Section WithB.
    Context (dsB : list d1_did) (mB : objects) (LB : d1_linearizes e who ∅ (partB cs ownB x) dsB mB).
    Notation hB := (flat_map convB dsB).
    Lemma B_call d : In d dsB -> exists t c, ownB !! dn_call d = Some t /\ cs !! t = Some (OnObject c) /\ ev_call (dn_event d) = retok t c /\
      D1ConcSpec.outside_ok e who (retok t c) (ev_outside (dn_event d)).
    Proof.
      intros Hd. destruct LB as (_ & _ & H & _). destruct (H d Hd) as [H1 H2]. rewrite (callsB_at x x [] _ (eq_sym (app_nil_r x))) in H1.
      destruct (ownB !! dn_call d) as [t|]; [|discriminate]. destruct (cs !! t) as [[c|c|c]|] eqn:E; try discriminate. injection H1 as H1. exists t, c. rewrite <- H1 in H2. auto.
    Qed.
    Lemma B_run : runB ∅ hB.
    Proof.
      destruct LB as (H & _). pose proof B_call as HC. revert H HC. generalize (∅ : objects), mB. generalize dsB as ds. intros ds. induction ds as [|d ds IH]; intros d0 d1 H HC; [exact Logic.I|].
      inversion H as [|? ? d2 ? ? H1 H2]; subst. destruct (HC d (or_introl eq_refl)) as (t & c & K1 & K2 & K3 & _).
      cbn [flat_map]. unfold convB at 1. rewrite K1, K2. cbn. exists d2. split; [apply (retok_step _ t); now rewrite <- K3|]. eapply IH; [exact H2|]. intros d3 Hd3. apply HC. now right.
    Qed.
    Lemma B_kind : Forall (fun h => kind h = 1%nat) hB.
    Proof. apply Forall_forall. intros h H. apply in_flat_map in H as (d & _ & H). now apply convB_call in H. Qed.
    Lemma B_nodup : NoDup (map tag hB).
    Proof.
      apply (conv_nodup convB dn_call); [apply convB_one| |apply LB]. intros d1 d2 h h' H1 H2 E. apply convB_call in H1 as [H1 _]. apply convB_call in H2 as [H2 _]. rewrite E in H1.
      eapply nodup_at; [apply (ownB_nodup x Hx)|exact H1|exact H2].
    Qed.
    Lemma B_of h : In h hB -> half_of e cs h.
    Proof.
      intros H. apply in_flat_map in H as (d & Hd & H). destruct (B_call d Hd) as (t & c & K1 & K2 & K3 & _ & K4 & K5). unfold convB in H. rewrite K1, K2 in H. destruct H as [<-|[]]. cbn. rewrite nth_error_is_lookup, K2. auto.
    Qed.
    Lemma B_who h tok r : In h hB -> half_who h = Some (tok, r) -> r = tbl x (half_call h) /\ exists c, cs !! half_call h = Some (OnObject c) /\ call_token c = Some tok.
    Proof.
      intros H Hw. apply in_flat_map in H as (d & Hd & H). destruct (B_call d Hd) as (t & c & K1 & K2 & K3 & K4 & _). unfold convB in H. rewrite K1, K2 in H. destruct H as [<-|[]]. cbn in Hw |- *.
      destruct (call_token c) as [tok'|] eqn:E; [|discriminate]. injection Hw as -> <-. split; [|eauto]. assert (Ht : call_token (retok t c) = Some (zeros t)) by (destruct c; try discriminate E; reflexivity).
      specialize (K4 _ Ht). unfold who, zeros in K4. now rewrite repeat_length in K4.
    Qed.
    Lemma B_cut i : exists k, RB hB i k.
    Proof.
      destruct LB as (_ & L2 & _ & L4 & L5). destruct (L5 (partB cs ownB (seen i)) (partB cs ownB (drop i x))) as (ds1 & ds2 & E & D1 & D2).
      { unfold partB. rewrite <- flat_map_app. now rewrite <- seen_split. }
      assert (Hh : hB = flat_map convB ds1 ++ flat_map convB ds2) by now rewrite E, flat_map_app.
      exists (length (flat_map convB ds1)). unfold RB. rewrite (split_take _ _ _ Hh). split.
      - intros t r H. pose proof H as Hin. apply in_split in Hin as (x1 & x2 & E1).
        assert (EX : x = x1 ++ XReply t (LObject r) :: x2 ++ drop i x). { rewrite (seen_split i) at 1. rewrite E1, <- app_assoc. reflexivity. }
        destruct (ok_prefix x Hx _ _ _ EX) as [(c & Hz) Hk]. pose proof (calls_prefix x Hx _ _ _ _ EX Hz) as Hc.
        assert (Ho : In t ownB). { apply (ownB_in x). split; [rewrite EX, known_app; apply in_app_iff; now left|eauto]. }
        apply elem_of_list_In, elem_of_list_lookup in Ho as (j & Hj).
        assert (HR : In (DReply j r) (partB cs ownB (seen i))) by (apply (in_B x Hx); eauto).
        pose proof (D1 j r HR) as H1. apply in_map_iff in H1 as (d & Hdj & Hd). destruct (L4 j r) as (d2 & M1 & M2 & M3).
        { apply (in_B x Hx). exists t. split; [exact Hj|]. rewrite (seen_split i). apply in_app_iff. now left. }
        assert (d = d2) as ->. { apply (nodup_in dn_call dsB); auto; [|congruence]. rewrite E. apply in_app_iff. now left. }
        exists (HObject t (mkEvent (ev_outside (dn_event d2)) c (ev_reply (dn_event d2)))). split; [|split; [reflexivity|cbn; now rewrite M3]].
        apply in_flat_map. exists d2. split; [exact Hd|]. unfold convB. rewrite M2, Hj, Hc. now left.
      - intros h H. apply in_flat_map in H as (d & Hd & H). apply convB_call in H as [H _]. assert (Hl : (dn_call d < length (calls_of (partB cs ownB (seen i))))%nat) by (apply D2; now apply in_map).
        rewrite (lenB x) in Hl. destruct (lookup_lt_is_Some_2 _ _ Hl) as (t & Ht). pose proof (ownB_prefix x (seen i) (drop i x) _ _ (seen_split i) Ht) as Ht'. rewrite H in Ht'. injection Ht' as ->.
        assert (Hin : In t (LibConcParts.ownB cs (seen i))) by (apply elem_of_list_In, elem_of_list_lookup; eauto). apply (ownB_in x) in Hin. apply Hin.
    Qed.
  End WithB.
  (** *** The index *)
  Definition convC (d : ix_act) : list half :=
    match ownC !! ia_call d with
    | Some t => match cs !! t with Some (OnIndex c) => [HIndex t (mkIxEvent (iv_x (ia_event d)) c (iv_reply (ia_event d)))] | _ => [] end
    | None => []
    end.
  Lemma convC_call d h : In h (convC d) -> ownC !! ia_call d = Some (half_call h) /\ kind h = 2%nat.
  Proof. unfold convC. destruct (ownC !! ia_call d) as [t|]; [|intros []]. destruct (cs !! t) as [[c|c|c]|]; try intros []; [subst; auto|contradiction]. Qed.
  Lemma convC_one d : (length (convC d) <= 1)%nat.
  Proof. unfold convC. destruct (ownC !! ia_call d) as [t|]; cbn; [|lia]. destruct (cs !! t) as [[c|c|c]|]; cbn; lia. Qed.
  Definition RC (hC : list half) (i k : nat) : Prop :=
    (forall t r, In (XReply t (LIndex r)) (seen i) -> exists h, In h (take k hC) /\ half_call h = t /\ half_reply h = Some (LIndex r)) /\
    (forall h, In h (take k hC) -> In (half_call h) (known (seen i))).
  Lemma RC_max hC i k k' : RC hC i k -> RC hC (S i) k' -> RC hC (S i) (Nat.max k k').
  Proof.
    intros (P1 & P3) (Q1 & Q3). assert (Hle : (k' <= Nat.max k k')%nat) by lia. split.
    - intros t r H. destruct (Q1 t r H) as (h & H1 & H2). exists h. split; [|exact H2]. eapply in_take_le; eauto.
    - intros h H. destruct (Nat.max_dec k k') as [E|E]; rewrite E in H; [|now apply Q3]. specialize (P3 h H). destruct (seen_more i) as (y & ->). rewrite known_app. apply in_app_iff. now left.
  Qed.
  Lemma ix_retok_step y t c m r m' : ix_step y (ix_retok t c) m r m' -> ix_step y c m r m'.
  Proof. destruct c; exact (fun H => H). Qed.
  Section WithC.
    Context (dsC : list ix_act) (mC : index) (LC : ix_in_turn e who index_empty (partC cs ownC x) dsC mC).
    Notation hC := (flat_map convC dsC).
    Lemma C_call d : In d dsC -> exists t c, ownC !! ia_call d = Some t /\ cs !! t = Some (OnIndex c) /\ iv_call (ia_event d) = ix_retok t c /\
      ix_outside_ok e who (ix_retok t c) (iv_x (ia_event d)).
    Proof.
      intros Hd. destruct LC as (_ & _ & H & _). destruct (H d Hd) as [H1 H2]. rewrite (callsC_at x x [] _ (eq_sym (app_nil_r x))) in H1.
      destruct (ownC !! ia_call d) as [t|]; [|discriminate]. destruct (cs !! t) as [[c|c|c]|] eqn:E; try discriminate. injection H1 as H1. exists t, c. rewrite <- H1 in H2. auto.
    Qed.
    Lemma C_run : runC index_empty hC.
    Proof.
      destruct LC as (H & _). pose proof C_call as HC. revert H HC. generalize index_empty, mC. generalize dsC as ds. intros ds. induction ds as [|d ds IH]; intros d0 d1 H HC; [exact Logic.I|].
      inversion H as [|? ? d2 ? ? H1 H2]; subst. destruct (HC d (or_introl eq_refl)) as (t & c & K1 & K2 & K3 & _).
      cbn [flat_map]. unfold convC at 1. rewrite K1, K2. cbn. exists d2. split; [apply (ix_retok_step _ t); now rewrite <- K3|]. eapply IH; [exact H2|]. intros d3 Hd3. apply HC. now right.
    Qed.
    Lemma C_kind : Forall (fun h => kind h = 2%nat) hC.
    Proof. apply Forall_forall. intros h H. apply in_flat_map in H as (d & _ & H). now apply convC_call in H. Qed.
    Lemma C_nodup : NoDup (map tag hC).
    Proof.
      apply (conv_nodup convC ia_call); [apply convC_one| |apply LC]. intros d1 d2 h h' H1 H2 E. apply convC_call in H1 as [H1 _]. apply convC_call in H2 as [H2 _]. rewrite E in H1.
      eapply nodup_at; [apply (ownC_nodup x Hx)|exact H1|exact H2].
    Qed.
    Lemma C_of h : In h hC -> half_of e cs h.
    Proof.
      intros H. apply in_flat_map in H as (d & Hd & H). destruct (C_call d Hd) as (t & c & K1 & K2 & K3 & _ & K4). unfold convC in H. rewrite K1, K2 in H. destruct H as [<-|[]]. cbn. rewrite nth_error_is_lookup, K2. auto.
    Qed.
    Lemma C_who h tok r : In h hC -> half_who h = Some (tok, r) -> r = tbl x (half_call h) /\ exists c, cs !! half_call h = Some (OnIndex c) /\ ix_token c = tok.
    Proof.
      intros H Hw. apply in_flat_map in H as (d & Hd & H). destruct (C_call d Hd) as (t & c & K1 & K2 & K3 & K4 & _). unfold convC in H. rewrite K1, K2 in H. destruct H as [<-|[]]. cbn in Hw |- *.
      injection Hw as <- <-. split; [|eauto]. unfold who in K4. assert (Ht : ix_token (ix_retok t c) = zeros t) by (destruct c; reflexivity). rewrite Ht in K4. unfold zeros in K4. now rewrite repeat_length in K4.
    Qed.
    Lemma C_cut i : exists k, RC hC i k.
    Proof.
      destruct LC as (_ & L2 & _ & L4 & L5). destruct (L5 (partC cs ownC (seen i)) (partC cs ownC (drop i x))) as (ds1 & ds2 & E & D1 & D2).
      { unfold partC. rewrite <- flat_map_app. now rewrite <- seen_split. }
      assert (Hh : hC = flat_map convC ds1 ++ flat_map convC ds2) by now rewrite E, flat_map_app.
      exists (length (flat_map convC ds1)). unfold RC. rewrite (split_take _ _ _ Hh). split.
      - intros t r H. pose proof H as Hin. apply in_split in Hin as (x1 & x2 & E1).
        assert (EX : x = x1 ++ XReply t (LIndex r) :: x2 ++ drop i x). { rewrite (seen_split i) at 1. rewrite E1, <- app_assoc. reflexivity. }
        destruct (ok_prefix x Hx _ _ _ EX) as [(c & Hz) Hk]. pose proof (calls_prefix x Hx _ _ _ _ EX Hz) as Hc.
        assert (Ho : In t ownC). { apply (ownC_in x). split; [rewrite EX, known_app; apply in_app_iff; now left|eauto]. }
        apply elem_of_list_In, elem_of_list_lookup in Ho as (j & Hj).
        assert (HR : In (OReply j r) (partC cs ownC (seen i))) by (apply (in_C x Hx); eauto).
        pose proof (D1 j r HR) as H1. apply in_map_iff in H1 as (d & Hdj & Hd). destruct (L4 j r) as (d2 & M1 & M2 & M3).
        { apply (in_C x Hx). exists t. split; [exact Hj|]. rewrite (seen_split i). apply in_app_iff. now left. }
        assert (d = d2) as ->. { apply (nodup_in ia_call dsC); auto; [|congruence]. rewrite E. apply in_app_iff. now left. }
        exists (HIndex t (mkIxEvent (iv_x (ia_event d2)) c (iv_reply (ia_event d2)))). split; [|split; [reflexivity|cbn; now rewrite M3]].
        apply in_flat_map. exists d2. split; [exact Hd|]. unfold convC. rewrite M2, Hj, Hc. now left.
      - intros h H. apply in_flat_map in H as (d & Hd & H). apply convC_call in H as [H _]. assert (Hl : (ia_call d < length (obs_calls (partC cs ownC (seen i))))%nat) by (apply D2; now apply in_map).
        rewrite (lenC x) in Hl. destruct (lookup_lt_is_Some_2 _ _ Hl) as (t & Ht). pose proof (ownC_prefix x (seen i) (drop i x) _ _ (seen_split i) Ht) as Ht'. rewrite H in Ht'. injection Ht' as ->.
        assert (Hin : In t (LibConcParts.ownC cs (seen i))) by (apply elem_of_list_In, elem_of_list_lookup; eauto). apply (ownC_in x) in Hin. apply Hin.
    Qed.
  End WithC.
End Final.

Lemma library_overlaps {S I} (e : env) (v : view S) (io : provider S) (L : lib) (ks : res keys) (fuel : nat) (w w' : world S I) tr pool' :
  cell_storage v io -> entrywise v io -> (forall n, time_wf (clock e n)) -> ix_new ks = Ok (l_iek L) -> lib_vacant v w -> lib_conc e v io L fuel [] w tr pool' w' ->
  lib_wf tr -> lib_orderly tr -> ids_differ e (w_draws w) (w_draws w') -> lib_no_guess e (w_draws w) (w_draws w') tr -> unforged (l_sa L) (id_part tr) ->
  N.of_nat (count_adds (index_calls (lib_calls tr))) < 2 ^ 64 -> (count_adds (index_calls (lib_calls tr)) < fuel)%nat ->
  labels_differ (l_iek L) (map ix_keyword (index_calls (lib_calls tr))) (N.of_nat (count_adds (index_calls (lib_calls tr)))) ->
  exists hs s, lib_acts e tr hs s.
Proof.
  intros Hio Hew Hcl Hnew [Hi Hvac] Hrun Hwf Hord Hids Hg Hu Hfew Hfuel Hlab.
  destruct (structured e v io L fuel _ _ _ _ _ Hrun [] ltac:(constructor)) as (x & P' & HS & <-).
  assert (Hok : all_ok (I := I) v []) by constructor.
  assert (Hx : xwf [] x). { apply (shape e v io Hio Hew L fuel _ _ _ _ _ HS Hi Hok []). split; [reflexivity|]. split; [intros t []|]. split; [|split]; intros t c p H; discriminate. }
  rewrite !lib_calls_vis in *. pose proof (tbl_at x Hx) as Htb. pose proof (ownB_nodup x Hx) as NB. pose proof (ownC_nodup x Hx) as NC. pose proof (count_C x Hx) as HCC.
  destruct (run_A e v io Hio Hew L fuel (xcalls x) _ _ _ _ _ HS Hi Hok eq_refl []) as (QA & HA); [constructor|].
  destruct (run_B e v io Hio Hew L fuel (xcalls x) (tbl x) _ _ _ _ _ HS Hi Hok eq_refl Htb [] _ [] eq_refl NB) as (QB & HB); [constructor; [reflexivity|intros j t H; discriminate|intros t c p H; discriminate]|].
  destruct (run_C e v io Hio Hew L fuel (xcalls x) (tbl x) _ _ _ _ _ HS Hi Hok eq_refl Htb [] _ [] eq_refl NC) as (QC & HC); [constructor; [reflexivity|intros j t H; discriminate|intros t c p H; discriminate]|].
  cbn [app] in HB, HC.
  assert (LA : exists ds d', sa_linearizes e dir_empty (partA (xcalls x) x) ds d').
  { eapply SaConcAll.identities_linearize; [exact Hio|exact Hcl| |exact HA|apply scopes_A, Hwf|apply orderly_A, Hord|exact Hids|apply no_guess_A, Hg|now apply unforged_A].
    split; [exact Hi|]. intros id dt Hdt. apply Hvac. unfold lib_data, sa_writes. tauto. }
  assert (LB : exists ds m', d1_linearizes e (who x) ∅ (partB (xcalls x) (ownB (xcalls x) x) x) ds m').
  { eapply objects_linearize; [exact Hio| | | |exact HB|now apply ids_B|now apply orderly_B|exact Hids|now apply no_guess_B].
    - intros tok. reflexivity.
    - intros tok. exact Logic.I.
    - split; [exact Hi|]. intros id dt Hid Hdt. apply Hvac. unfold lib_data, d1_writes. tauto. }
  assert (LC : exists ds m', ix_in_turn e (who x) index_empty (partC (xcalls x) (ownC (xcalls x) x) x) ds m').
  { eapply IndexOwnAll.in_turn; [exact Hio| |exact Hnew| |exact HC|now apply orderly_C|lia|lia|now apply labels_C].
    - intros tok. reflexivity.
    - split; [exact Hi|]. intros id. apply Hvac. unfold lib_data, ix_writes. tauto. }
  destruct LA as (dsA & dA & LA), LB as (dsB & mB & LB), LC as (dsC & mC & LC).
  set (hA := flat_map (convA x) dsA). set (hB := flat_map (convB x) dsB). set (hC := flat_map (convC x) dsC).
  destruct (cuts (RA x hA) (A_cut e x Hx dsA dA LA) (RA_max x hA) (length x)) as (KA & KA0 & KA1 & KA2).
  destruct (cuts (RB x hB) (B_cut e x Hx dsB mB LB) (RB_max x hB) (length x)) as (KB & KB0 & KB1 & KB2).
  destruct (cuts (RC x hC) (C_cut e x Hx dsC mC LC) (RC_max x hC) (length x)) as (KC & KC0 & KC1 & KC2).
  pose proof (A_kind x dsA) as kA. pose proof (B_kind x dsB) as kB. pose proof (C_kind x dsC) as kC. fold hA in kA. fold hB in kB. fold hC in kC.
  set (M := merged hA hB hC KA KB KC). pose proof (filters hA hB hC KA KB KC kA kB kC KA0 KB0 KC0 KA2 KB2 KC2) as HF. pose proof (merged_in hA hB hC KA KB KC kA kB kC KA0 KB0 KC0 KA2 KB2 KC2) as HM.
  fold M in HF, HM. set (n := Datatypes.S (length x)).
  assert (HOf : forall h, In h (M n) -> half_of e (xcalls x) h).
  { intros h H. apply HM in H as [H|[H|H]]; apply in_take in H; [now apply (A_of e x dsA dA LA)|now apply (B_of e x dsB mB LB)|now apply (C_of e x dsC mC LC)]. }
  assert (HReply : forall i t r, (i <= length x)%nat -> In (XReply t r) (seen x i) -> exists h, In h (M (Datatypes.S i)) /\ half_call h = t /\ half_reply h = Some r).
  { intros i t r Hle H. destruct r as [r|r|r].
    - destruct (KB1 i Hle) as [R _]. destruct (R t r H) as (h & H1 & H2). exists h. split; [apply HM; auto|exact H2].
    - destruct (KC1 i Hle) as [R _]. destruct (R t r H) as (h & H1 & H2). exists h. split; [apply HM; auto|exact H2].
    - destruct (KA1 i Hle) as [R _]. destruct (R t r H) as (h & H1 & H2). exists h. split; [apply HM; auto|exact H2]. }
  destruct (HF n) as (FA & FB & FC).
  destruct (joined (M n) lib_empty) as (s & Hs).
  { apply runA_filter. rewrite FA. apply runA_take, (A_run e x dsA dA LA). }
  { apply runB_filter. rewrite FB. apply runB_take, (B_run e x dsB mB LB). }
  { apply runC_filter. rewrite FC. apply runC_take, (C_run e x dsC mC LC). }
  exists (M n), s. split; [exact Hs|]. split; [|split; [|split; [|split]]].
  - change (NoDup (map tag (M n))). apply tags_nodup.
    + intros h h' H H' E. apply HOf in H, H'. unfold tag in E. injection E as E1 E2. destruct h, h'; cbn in *; try reflexivity; try discriminate; subst; destruct H as [H _], H' as [H' _]; congruence.
    + intros k Hk. destruct k as [|[|[|k]]]; [rewrite FA|rewrite FB|rewrite FC|lia]; rewrite <- firstn_map; apply nodup_take; [apply (A_nodup e x dsA dA LA)|apply (B_nodup e x Hx dsB mB LB)|apply (C_nodup e x Hx dsC mC LC)].
  - now rewrite lib_calls_vis.
  - intros l h r tok q E Hw. apply (merged_order hA hB hC KA KB KC kA kB kC KA0 KB0 KC0 KA2 KB2 KC2 n) with (n := n) (r := r); [|lia|exact E|exact Hw].
    clear l h r tok q E Hw. intros i h tok q Hle Hin Hw. destruct i as [|i]; [rewrite KB0, KC0 in Hin; destruct Hin as [Hin|Hin]; destruct Hin|]. assert (Hle' : (i <= length x)%nat) by (subst n; lia).
    destruct (KA1 i Hle') as (_ & R & _).
    assert (HK : In (half_call h) (known (seen x i)) /\ q = tbl x (half_call h) /\ exists c, xcalls x !! half_call h = Some c /\ looks_up c = Some tok).
    { destruct Hin as [Hin|Hin].
      - split; [now apply (KB1 i Hle')|]. apply in_take in Hin. destruct (B_who e x dsB mB LB h tok q Hin Hw) as (E & c & H1 & H2). split; [exact E|]. exists (OnObject c). auto.
      - split; [now apply (KC1 i Hle')|]. apply in_take in Hin. destruct (C_who e x dsC mC LC h tok q Hin Hw) as (E & c & H1 & H2). split; [exact E|]. exists (OnIndex c). split; [exact H1|]. cbn. now rewrite H2. }
    destruct HK as (HK & -> & c & Hc & Ht). apply known_in in HK as (q & HK). rewrite (Htb _ q) by (rewrite (seen_split x i); apply in_app_iff; now left). eapply R; eauto.
  - intros t r H. apply in_vis in H. apply (HReply (length x)); [lia|]. unfold seen. now rewrite firstn_all.
  - intros tr1 tr2 E. unfold vis in E. apply pieces_split in E as (x1 & x2 & E & E1 & _); [|intros [c|t r|t r]; cbn; lia]. change (vis x1 = tr1) in E1. subst tr1.
    assert (Es : seen x (length x1) = x1) by (unfold seen; rewrite E; apply take_app). assert (Hle : (length x1 <= length x)%nat) by (rewrite E, app_length; lia).
    destruct (merged_prefix hA hB hC KA KB KC (Datatypes.S (length x1)) n ltac:(subst n; lia)) as (r & Er). exists (M (Datatypes.S (length x1))), r. split; [exact Er|]. split.
    + intros t q H. apply in_vis in H. apply HReply; [exact Hle|]. now rewrite Es.
    + intros h H. rewrite lib_calls_vis. apply HM in H as [H|[H|H]].
      * destruct (KA1 _ Hle) as (_ & _ & R). rewrite Es in R. now apply R.
      * destruct (KB1 _ Hle) as (_ & R). rewrite Es in R. apply (known_lt x Hx x1 x2 _ E). now apply R.
      * destruct (KC1 _ Hle) as (_ & R). rewrite Es in R. apply (known_lt x Hx x1 x2 _ E). now apply R.
Qed.
