(** Concrete overlapping object calls: a case of C55, and what is lost when calls are at odds. *)
From Coq Require Import ZifyN ZifyNat.
From stdpp Require Import gmap.
From Verif Require Import Bytes Go Uuid Types World Io IoSpec IoProofs Id Data D1 D1Proofs Spec SpecProofs History Claims Demo D1ConcSpec D1Conc.
Local Open Scope bool_scope.
Local Open Scope N_scope.

(** ** Playing a script *)
Inductive d1_play := DPCall (c : d1_call) | DPSteps (t n : nat) | DPReply (t : nat).
Section Play.
  Context {S I : Type} (e : env) (v : view S) (io : provider S).
  Notation W := (world S I).
  Context (idp : bytes -> prog W (res identity)) (d : d1).
  Notation pool := (list (prog W (res d1_reply))).
  Fixpoint d1_play_steps (n t : nat) (pl : pool) (w : W) : pool * W :=
    match n with
    | O => (pl, w)
    | Datatypes.S n => match pl !! t with
                       | Some (Step f k) => let '(x, w1) := f w in d1_play_steps n t (<[t := k x]> pl) w1
                       | _ => (pl, w)
                       end
    end.
  Fixpoint d1_play_script (l : list d1_play) (pl : pool) (w : W) : list d1_obs * (pool * W) :=
    match l with
    | [] => ([], (pl, w))
    | DPCall c :: l => let '(tr, z) := d1_play_script l (pl ++ [d1_aes e io idp d c]) w in (DCall c :: tr, z)
    | DPSteps t n :: l => let '(pl1, w1) := d1_play_steps n t pl w in d1_play_script l pl1 w1
    | DPReply t :: l => match pl !! t with
                       | Some (Ret r) => let '(tr, z) := d1_play_script l pl w in (DReply t r :: tr, z)
                       | _ => d1_play_script l pl w
                       end
    end.
  Notation conc := (d1_conc e v io idp d).
  Lemma d1_play_steps_conc n t : forall pl (w : W) tr pl' w', conc (fst (d1_play_steps n t pl w)) (snd (d1_play_steps n t pl w)) tr pl' w' -> conc pl w tr pl' w'.
  Proof.
    induction n as [|n IH]; intros pl w tr pl' w' H; cbn [d1_play_steps] in H; [exact H|].
    destruct (pl !! t) as [[a|X f k]|] eqn:Et; try exact H.
    destruct (f w) as [x w1] eqn:Ef. eapply dc_step; [exact Et|]. rewrite Ef. cbn [fst snd]. apply IH. exact H.
  Qed.
  Lemma d1_play_conc l : forall pl (w : W) tr pl' w', d1_play_script l pl w = (tr, (pl', w')) -> conc pl w tr pl' w'.
  Proof.
    induction l as [|o l IH]; intros pl w tr pl' w' H; cbn [d1_play_script] in H; [injection H as <- <- <-; constructor|].
    destruct o as [c|t n|t].
    - destruct (d1_play_script l _ w) as [tr1 z] eqn:E. injection H as <- ->. apply dc_call. eauto.
    - destruct (d1_play_steps n t pl w) as [pl1 w1] eqn:E. apply (d1_play_steps_conc n t). rewrite E. cbn [fst snd]. eauto.
    - destruct (pl !! t) as [[r|X f k]|] eqn:Et; try (now apply IH).
      destruct (d1_play_script l pl w) as [tr1 z] eqn:E. injection H as <- ->. eapply dc_reply; eauto.
  Qed.
End Play.

(** ** Comparing observations *)
Definition slice_eqb (a b : gslice) : bool := match a, b with None, None => true | Some x, Some y => bytes_eqb x y | _, _ => false end.
Definition object_eqb (a b : object) : bool := slice_eqb (o_pt a) (o_pt b) && slice_eqb (o_ad a) (o_ad b).
Fixpoint list_eqb (l l' : list bytes) : bool :=
  match l, l' with [], [] => true | x :: l, y :: l' => bytes_eqb x y && list_eqb l l' | _, _ => false end.
Definition d1_reply_eqb (r r' : res d1_reply) : bool :=
  match r, r' with
  | Ok (ROid o), Ok (ROid o') => bytes_eqb o o'
  | Ok (RObject o), Ok (RObject o') => object_eqb o o'
  | Ok RUnit, Ok RUnit => true
  | Ok (RGroups (Some g)), Ok (RGroups (Some g')) => bool_decide (g = g')
  | Err EAesAuth, Err EAesAuth => true
  | Err ED1ObjectNotFound, Err ED1ObjectNotFound => true
  | _, _ => false
  end.
Definition d1_call_eqb (c c' : d1_call) : bool :=
  match c, c' with
  | CEncrypt t o g, CEncrypt t' o' g' => bytes_eqb t t' && object_eqb o o' && list_eqb g g'
  | CUpdate t i o, CUpdate t' i' o' => bytes_eqb t t' && bytes_eqb i i' && object_eqb o o'
  | CDecrypt t i, CDecrypt t' i' | CDelete t i, CDelete t' i' | CGetAccessGroups t i, CGetAccessGroups t' i' => bytes_eqb t t' && bytes_eqb i i'
  | CAddGroups t i g, CAddGroups t' i' g' | CRemoveGroups t i g, CRemoveGroups t' i' g' => bytes_eqb t t' && bytes_eqb i i' && list_eqb g g'
  | _, _ => false
  end.
Fixpoint d1_obs_eqb (tr tr' : list d1_obs) : bool :=
  match tr, tr' with
  | [], [] => true
  | DCall c :: tr, DCall c' :: tr' => d1_call_eqb c c' && d1_obs_eqb tr tr'
  | DReply t r :: tr, DReply t' r' :: tr' => Nat.eqb t t' && d1_reply_eqb r r' && d1_obs_eqb tr tr'
  | _, _ => false
  end.
Lemma slice_eqb_eq a b : slice_eqb a b = true -> a = b.
Proof. destruct a, b; cbn; intros H; try discriminate; [|reflexivity]. apply bytes_eqb_eq in H. now subst. Qed.
Lemma object_eqb_eq a b : object_eqb a b = true -> a = b.
Proof. destruct a, b. unfold object_eqb. cbn. intros H. apply Bool.andb_true_iff in H as [H1 H2]. apply slice_eqb_eq in H1, H2. now subst. Qed.
Lemma list_eqb_eq l : forall l', list_eqb l l' = true -> l = l'.
Proof.
  induction l as [|x l IH]; intros [|y l'] H; try discriminate; [reflexivity|]. cbn [list_eqb] in H. apply Bool.andb_true_iff in H as [H1 H2].
  apply bytes_eqb_eq in H1. subst. f_equal. auto.
Qed.
Lemma d1_reply_eqb_eq r r' : d1_reply_eqb r r' = true -> r = r'.
Proof.
  destruct r as [y|x|]; cbn [d1_reply_eqb].
  - destruct y as [o|o| |[g|]|t|b]; try discriminate; (destruct r' as [[o'|o'| |[g'|]|t'|b']|x'|]; try discriminate); intros H; try reflexivity.
    + apply bytes_eqb_eq in H. now subst.
    + apply object_eqb_eq in H. now subst.
    + apply bool_decide_eq_true in H. now subst.
  - destruct x; try discriminate; destruct r' as [y'|[]|]; try discriminate; reflexivity.
  - discriminate.
Qed.
Lemma d1_call_eqb_eq c c' : d1_call_eqb c c' = true -> c = c'.
Proof.
  destruct c, c'; cbn [d1_call_eqb]; intros H; try discriminate; repeat (apply Bool.andb_true_iff in H as [H ?]);
  repeat match goal with K : bytes_eqb _ _ = true |- _ => apply bytes_eqb_eq in K; subst | K : object_eqb _ _ = true |- _ => apply object_eqb_eq in K; subst
    | K : list_eqb _ _ = true |- _ => apply list_eqb_eq in K; subst end; reflexivity.
Qed.
Lemma d1_obs_eqb_eq tr : forall tr', d1_obs_eqb tr tr' = true -> tr = tr'.
Proof.
  induction tr as [|o tr IH]; intros [|o' tr'] H; cbn [d1_obs_eqb] in H; [reflexivity|discriminate|destruct o; discriminate|].
  destruct o as [c|t r], o' as [c'|t' r']; try discriminate.
  - apply Bool.andb_true_iff in H as [H1 H2]. apply d1_call_eqb_eq in H1. subst. f_equal. auto.
  - apply Bool.andb_true_iff in H as [H1 H2]. apply Bool.andb_true_iff in H1 as [H0 H1]. apply Nat.eqb_eq in H0. apply d1_reply_eqb_eq in H1. subst. f_equal. auto.
Qed.
Notation demo_play l := (d1_play_script demo_env Mem (@demo_idp _) demo_d1 l [] demo_w).
Lemma d1_play_test l tr : d1_obs_eqb (fst (demo_play l)) tr = true ->
  exists pool' w', w_draws w' = w_draws (snd (snd (demo_play l))) /\ d1_conc demo_env mem_view Mem demo_idp demo_d1 [] demo_w tr pool' w'.
Proof.
  intros H. apply d1_obs_eqb_eq in H. destruct (demo_play l) as [tr1 [pl' w']] eqn:E. cbn [fst] in H. subst tr1.
  exists pl', w'. split; [reflexivity|]. eapply d1_play_conc; exact E.
Qed.
Definition demo_oid : uuid := match draw demo_env 0 16 with Ok b => uuid_v4 b | _ => [] end.
Notation enc := (CEncrypt tok_alice demo_obj [staff]).
Notation dec := (CDecrypt tok_carol demo_oid).
Notation upd := (CUpdate tok_alice demo_oid demo_obj2).
Notation del := (CDelete tok_alice demo_oid).
Notation addg := (CAddGroups tok_alice demo_oid [str "bob"]).
Notation getg := (CGetAccessGroups tok_alice demo_oid).

(** ** A case of C55: carol decrypts while alice adds bob and looks at the list *)
Definition calm_tr : list d1_obs :=
  [DCall enc; DReply 0 (Ok (ROid demo_oid)); DCall dec; DCall addg; DCall getg; DReply 2 (Ok RUnit);
   DReply 3 (Ok (RGroups (Some (list_to_set [str "alice"; staff; str "bob"])))); DReply 1 (Ok (RObject demo_obj))].
Definition calm_script : list d1_play :=
  [DPCall enc; DPSteps 0 99; DPReply 0; DPCall dec; DPSteps 1 1; DPCall addg; DPSteps 2 3; DPCall getg; DPSteps 2 99; DPReply 2; DPSteps 3 99; DPReply 3; DPSteps 1 99; DPReply 1].
Lemma calm_test : (let z := demo_play calm_script in d1_obs_eqb (fst z) calm_tr && (w_draws (snd (snd z)) <? 256)%nat) = true.
Proof. vm_cast_no_check (eq_refl true). Qed.

(** ** What goes wrong otherwise *)
(** Update and Decrypt. *)
Definition torn_tr : list d1_obs :=
  [DCall enc; DReply 0 (Ok (ROid demo_oid)); DCall upd; DCall dec; DReply 1 (Ok RUnit); DReply 2 (Err EAesAuth)].
Lemma torn_test : d1_obs_eqb (fst (demo_play
  [DPCall enc; DPSteps 0 99; DPReply 0; DPCall upd; DPCall dec; DPSteps 2 2; DPSteps 1 99; DPReply 1; DPSteps 2 99; DPReply 2])) torn_tr = true.
Proof. vm_cast_no_check (eq_refl true). Qed.
(** Delete and Decrypt. *)
Definition gone_tr : list d1_obs :=
  [DCall enc; DReply 0 (Ok (ROid demo_oid)); DCall del; DCall dec; DReply 1 (Ok RUnit); DReply 2 (Err ED1ObjectNotFound)].
Lemma gone_test : d1_obs_eqb (fst (demo_play
  [DPCall enc; DPSteps 0 99; DPReply 0; DPCall del; DPCall dec; DPSteps 2 2; DPSteps 1 99; DPReply 1; DPSteps 2 99; DPReply 2])) gone_tr = true.
Proof. vm_cast_no_check (eq_refl true). Qed.
(** Update and AddGroupsToAccess: nobody will ever read the object again. *)
Definition lost_key_tr : list d1_obs :=
  [DCall enc; DReply 0 (Ok (ROid demo_oid)); DCall addg; DCall upd; DReply 2 (Ok RUnit); DReply 1 (Ok RUnit); DCall dec; DReply 3 (Err EAesAuth)].
Lemma lost_key_test : d1_obs_eqb (fst (demo_play
  [DPCall enc; DPSteps 0 99; DPReply 0; DPCall addg; DPSteps 1 1; DPCall upd; DPSteps 2 99; DPReply 2; DPSteps 1 99; DPReply 1; DPCall dec; DPSteps 3 99; DPReply 3])) lost_key_tr = true.
Proof. vm_cast_no_check (eq_refl true). Qed.

Lemma demo_ids n : (n <= 256)%nat -> ids_differ demo_env 0 n.
Proof.
  intros Hn i j b b' Hi Hj Hne Hb Hb' E. unfold draw in Hb, Hb'. cbn [tape demo_env] in Hb, Hb'.
  repeat (destruct (_ =? _); [|discriminate]). injection Hb as <-. injection Hb' as <-.
  change (N.to_nat 16) with 16%nat in E. unfold uuid_v4 in E. cbn [repeat firstn app] in E. injection E as E _.
  apply (f_equal bN) in E. rewrite !bN_Nb in E by lia. lia.
Qed.
Lemma demo_answers {S} (v : view S) tok : answers v (demo_idp tok : prog (world S unit) _) (fun r => r = demo_who tok).
Proof. reflexivity. Qed.
Lemma calm_calls : calls_of calm_tr = [enc; dec; addg; getg].
Proof. reflexivity. Qed.
Lemma demo_oid_wf : uuid_wf demo_oid.
Proof. reflexivity. Qed.
(** Observations split before a call. *)
Fixpoint before_calls (tr : list d1_obs) : list (list d1_obs * d1_call) :=
  match tr with
  | [] => []
  | DCall c :: tr => ([], c) :: map (fun x => (DCall c :: fst x, snd x)) (before_calls tr)
  | DReply t r :: tr => map (fun x => (DReply t r :: fst x, snd x)) (before_calls tr)
  end.
Lemma before_calls_in tr : forall tr1 c tr2, tr = tr1 ++ DCall c :: tr2 -> In (tr1, c) (before_calls tr).
Proof.
  induction tr as [|o tr IH]; intros [|o1 tr1] c tr2 E; cbn [app] in E; try discriminate; injection E as -> E.
  - cbn. now left.
  - apply IH in E. destruct o1; cbn [before_calls]; [right|]; apply (in_map (fun x => (_ :: fst x, snd x)) _ _ E).
Qed.
Lemma calm_orderly : orderly calm_tr.
Proof.
  intros tr1 c tr2 E t c' Ht Ho. apply before_calls_in in E. unfold calm_tr in E. cbn [before_calls map fst snd In] in E.
  destruct E as [E|[E|[E|[E|[]]]]]; injection E as <- <-; cbn [calls_of] in Ht.
  - destruct t; discriminate.
  - destruct t as [|[|t]]; try discriminate. injection Ht as <-. destruct Ho as [[o [Ho _]] _]. discriminate.
  - destruct t as [|[|[|t]]]; try discriminate; injection Ht as <-; destruct Ho as [[o [Ho Ho']] Hx]; [discriminate|]. cbn in Hx. destruct Hx as [[[?|?] _]|[[? _]|[_ ?]]]; discriminate.
  - destruct Ho as [_ Hx]. cbn in Hx. destruct Hx as [[_ [?|?]]|[[_ ?]|[_ ?]]]; discriminate.
Qed.
Lemma calm_no_guess n : no_guess demo_env 0 n calm_tr.
Proof.
  intros tr1 c tr2 i b E _ _ Ho. apply before_calls_in in E. unfold calm_tr in E. cbn [before_calls map fst snd In] in E.
  destruct E as [E|[E|[E|[E|[]]]]]; injection E as <- <-; cbn [call_oid] in Ho; [discriminate|..]; injection Ho as <-; exists 0%nat; right; now left.
Qed.
Lemma demo_calm : exists pool' w',
  cell_storage mem_view Mem /\ (forall tok, answers mem_view (demo_idp tok : prog DW _) (fun r => r = demo_who tok)) /\ (forall tok, forward (demo_idp tok : prog DW _)) /\
  fresh mem_view all_ids demo_w /\ d1_conc demo_env mem_view Mem demo_idp demo_d1 [] demo_w calm_tr pool' w' /\
  ids_wf calm_tr /\ orderly calm_tr /\ ids_differ demo_env (w_draws demo_w) (w_draws w') /\ no_guess demo_env (w_draws demo_w) (w_draws w') calm_tr.
Proof.
  pose proof calm_test as H. cbn zeta in H. apply Bool.andb_true_iff in H as [H1 H2]. apply Nat.ltb_lt in H2.
  destruct (d1_play_test _ _ H1) as (pool' & w' & Hd & Hr). rewrite <- Hd in H2. clear H1 Hd. exists pool', w'.
  split; [exact mem_cells|]. split; [intros tok; apply demo_answers|]. split; [intros tok; exact Logic.I|]. split; [apply demo_fresh|]. split; [exact Hr|].
  split; [|split; [exact calm_orderly|]; split; [apply demo_ids; apply Nat.lt_le_incl; exact H2|apply calm_no_guess]].
  intros c oid Hc. rewrite calm_calls in Hc. destruct Hc as [<-|[<-|[<-|[<-|[]]]]]; cbn [call_oid]; intros [= <-]; exact demo_oid_wf.
Qed.

(** No order explains a Decrypt that fails in other ways than the specification allows. *)
Lemma history_in m evs m' ev : spec_history m evs m' -> In ev evs -> exists m1 m2, spec_step (ev_outside ev) (ev_call ev) m1 (ev_reply ev) m2.
Proof. induction 1 as [|m ev' m1 evs m2 Hs _ IH]; intros []; [subst; eauto|auto]. Qed.
Lemma linear_decrypt e who m tr ds m' t tok oid x : d1_linearizes e who m tr ds m' -> In (DReply t (Err x)) tr -> nth_error (calls_of tr) t = Some (CDecrypt tok oid) ->
  x = ED1NotAuthenticated \/ x = ED1NotAuthorized \/ x = ED1AccessNotFound.
Proof.
  intros (H1 & _ & H3 & H4 & _) Hr Hc. destruct (H4 t _ Hr) as (dn & Hd & Ht & He). destruct (H3 dn Hd) as [Hc' _].
  rewrite Ht, Hc in Hc'. injection Hc' as Hc'. destruct (history_in _ _ _ (dn_event dn) H1 (in_map _ _ _ Hd)) as (m1 & m2 & Hs).
  rewrite <- Hc', He in Hs. cbn [spec_step] in Hs. unfold with_access, with_scope, refuse in Hs. destruct (o_who _) as [i|y|].
  - destruct Hs as [[_ [Hs _]]|[_ Hs]]; [injection Hs as ->; auto|]. destruct (m1 !! oid) as [[o acl]|]; [|destruct Hs as [Hs _]; injection Hs as ->; auto].
    destruct Hs as [[_ [Hs _]]|[_ [Hs _]]]; [injection Hs as ->; auto|discriminate].
  - destruct Hs as [Hs _]. injection Hs as ->. auto.
  - destruct Hs as [Hs _]. discriminate.
Qed.
Lemma torn_race : (exists pool' w', d1_conc demo_env mem_view Mem demo_idp demo_d1 [] demo_w torn_tr pool' w') /\ forall who ds m', ~ d1_linearizes demo_env who ∅ torn_tr ds m'.
Proof.
  split; [destruct (d1_play_test _ _ torn_test) as (pool' & w' & _ & H); eauto|]. intros who ds m' H.
  apply (linear_decrypt _ _ _ _ _ _ 2 tok_carol demo_oid EAesAuth) in H as [H|[H|H]]; [discriminate H..| |reflexivity]. unfold torn_tr. cbn [In]. auto 10.
Qed.
Lemma gone_race : (exists pool' w', d1_conc demo_env mem_view Mem demo_idp demo_d1 [] demo_w gone_tr pool' w') /\ forall who ds m', ~ d1_linearizes demo_env who ∅ gone_tr ds m'.
Proof.
  split; [destruct (d1_play_test _ _ gone_test) as (pool' & w' & _ & H); eauto|]. intros who ds m' H.
  apply (linear_decrypt _ _ _ _ _ _ 2 tok_carol demo_oid ED1ObjectNotFound) in H as [H|[H|H]]; [discriminate H..| |reflexivity]. unfold gone_tr. cbn [In]. auto 10.
Qed.
Lemma lost_key_race : (exists pool' w', d1_conc demo_env mem_view Mem demo_idp demo_d1 [] demo_w lost_key_tr pool' w') /\ forall who ds m', ~ d1_linearizes demo_env who ∅ lost_key_tr ds m'.
Proof.
  split; [destruct (d1_play_test _ _ lost_key_test) as (pool' & w' & _ & H); eauto|]. intros who ds m' H.
  apply (linear_decrypt _ _ _ _ _ _ 3 tok_carol demo_oid EAesAuth) in H as [H|[H|H]]; [discriminate H..| |reflexivity]. unfold lost_key_tr. cbn [In]. auto 10.
Qed.
