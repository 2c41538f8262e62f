(** What happens to strings in storage. *)
From Coq Require Import ZifyN ZifyNat.
From stdpp Require Import gmap.
From Verif Require Import Bytes Go Json JsonProofs Uuid Types World Logic IoSpec IoProofs Io Id D1 D1Proofs Spec SpecProofs History D1Refine Claims D1Props Demo
  Index IndexSpec IndexHist IndexCost IndexFacts IndexDemo.
Local Open Scope bool_scope.
Local Open Scope N_scope.

(** ** Decoding *)
Lemma as_text_char c s : scalar c -> as_text (utf8_char c ++ s) = utf8_char c ++ as_text s.
Proof.
  intros H. destruct (scalar_rune_raw c H) as [E1 E2]. unfold as_text, sanitize.
  pose proof (runes_concat [scalar_rune c] s) as R. cbn [map concat forallb] in R. rewrite app_nil_r, E1, E2 in R.
  rewrite R; [|constructor; [now apply scalar_rune_wf|constructor]|reflexivity]. cbn [map concat app].
  f_equal. rewrite <- E1. unfold scalar_rune. destruct (c <? 128); reflexivity.
Qed.
(** The first character of a string, or its first byte if it starts none. *)
Lemma runes_head b s : exists r s', runes (b :: s) = r :: runes s' /\ rune_raw r ++ s' = b :: s /\ rune_wf r.
Proof.
  cbn [runes]. destruct (N.ltb_spec (bN b) 128) as [L|L]; [exists (RAscii b), s; auto|].
  assert (B : exists r s', RBad b :: runes s = r :: runes s' /\ rune_raw r ++ s' = b :: s /\ rune_wf r) by (exists (RBad b), s; auto).
  destruct s as [|b1 s]; [exact B|]. destruct (inr 194 223 b && inr 128 191 b1) eqn:E1; [exists (RMulti [b; b1]), s; auto|].
  destruct s as [|b2 s]; [exact B|].
  match goal with |- context [if ?x then _ else _] => destruct x eqn:E2 end; [exists (RMulti [b; b1; b2]), s; auto|].
  destruct s as [|b3 s]; [exact B|].
  match goal with |- context [if ?x then _ else _] => destruct x eqn:E3 end; [exists (RMulti [b; b1; b2; b3]), s; auto|]. exact B.
Qed.
Lemma starts_char r c s u : rune_raw r ++ s = utf8_char c ++ u -> runes (rune_raw r ++ s) = r :: runes s -> scalar c -> rune_ok r = true.
Proof.
  intros E R H. rewrite E in R. destruct (scalar_rune_raw c H) as [E1 E2].
  pose proof (runes_concat [scalar_rune c] u) as R'. cbn [map concat forallb] in R'. rewrite app_nil_r, E1, E2 in R'.
  rewrite R' in R; [|constructor; [now apply scalar_rune_wf|constructor]|reflexivity]. injection R as <- _. exact E2.
Qed.
Lemma as_text_cases b s :
  (exists c s', scalar c /\ b :: s = utf8_char c ++ s' /\ as_text (b :: s) = utf8_char c ++ as_text s' /\ (length s' < length (b :: s))%nat) \/
  ((forall c u, scalar c -> utf8_char c ++ u <> b :: s) /\ as_text (b :: s) = utf8_char 65533 ++ as_text s).
Proof.
  destruct (runes_head b s) as (r & s' & R & E & Hw). destruct (rune_ok r) eqn:Ho.
  - left. destruct (rune_scalar_ok r Hw Ho) as [Hs Hc]. exists (rune_scalar r), s'. split; [exact Hs|]. rewrite Hc. split; [now rewrite E|]. split.
    + rewrite <- E, <- Hc. now apply as_text_char.
    + rewrite <- E, app_length. destruct r as [x|x|x]; [cbn; lia| |discriminate]. destruct x; [discriminate Hw|cbn; lia].
  - right. destruct r as [x|x|x]; try discriminate. cbn [rune_raw app] in E. injection E as -> ->. split.
    + intros c u Hc Hu. pose proof (starts_char (RBad b) c s u (eq_sym Hu) R Hc). discriminate.
    + unfold as_text, sanitize. now rewrite R.
Qed.
Lemma reads_back_as_text s : reads_back s (as_text s).
Proof.
  induction s as [s IH] using (induction_ltof1 _ (@length _)). unfold ltof in IH. destruct s as [|b s]; [apply rb_nil|].
  destruct (as_text_cases b s) as [(c & s' & H1 & H2 & H3 & H4)|[H1 H2]].
  - rewrite H3, H2. apply rb_char; [exact H1|]. apply IH. exact H4.
  - rewrite H2. apply rb_bad; [exact H1|]. apply IH. cbn. lia.
Qed.
Lemma reads_back_iff s t : reads_back s t <-> t = as_text s.
Proof.
  split; [|intros ->; apply reads_back_as_text]. intros H. induction H as [|c s t Hc _ IH|b s t Hn _ IH]; [reflexivity| |].
  - rewrite as_text_char by exact Hc. now rewrite IH.
  - destruct (as_text_cases b s) as [(c & s' & H1 & H2 & _)|[_ H2]]; [destruct (Hn c s' H1 (eq_sym H2))|]. now rewrite H2, IH.
Qed.
Lemma as_text_exact s : as_text s = s <-> Utf8 s.
Proof. rewrite Utf8_iff. apply sanitize_fix_iff. Qed.

(** ** Groups *)
Section Groups.
  Context {S I : Type} (e : env) (v : view S) (io : provider S) (Hio : io_spec False v io).
  Notation W := (world S I).
  Context (idp : bytes -> prog W (res identity)) (Hidp : idp_reads v idp) (d : d1).
  Notation call c := (d1_aes e io idp d c).

  Lemma after_encrypt tok obj groups (w : W) oid w1 evs w2 i c r w3 :
    v_inv v (w_io w) -> run (call (CEncrypt tok obj groups)) w = (Ok (ROid oid), w1) -> whois idp w tok = Ok i ->
    history e v io idp d (only oid) w1 evs w2 -> Forall event_ok evs -> Forall (fun ev => ~ about oid ev) evs ->
    run (call c) w2 = (r, w3) -> call_oid c = Some oid ->
    exists m m', m !! oid = Some (obj, list_to_set (map as_text (i_id i :: groups))) /\ spec_step (outside_of e idp w2 c w3) c m r m'.
  Proof.
    intros Hi Hr Hw HH Hok Hq Hc Ho.
    destruct (encrypt_lasts e v io Hio idp Hidp d tok obj groups w oid w1 evs w2 i Hi Hr Hw HH Hok Hq) as (Hoid & Hi2 & m & R & Hm).
    destruct (spec_sim e v io Hio idp Hidp d (only oid) w2 c r w3 m Hc Hi2 R) as (m' & Hs & _ & _).
    - intros o Eo. cbn in Eo. congruence.
    - unfold ev_in, ev_oid. cbn [ev_call]. destruct c; try discriminate; injection Ho as ->; cbn [call_oid]; apply bytes_eqb_refl.
    - exists m, m'. auto.
  Qed.
  Lemma groups_read tok obj groups (w : W) oid w1 evs w2 tok' i gs w3 :
    v_inv v (w_io w) -> run (call (CEncrypt tok obj groups)) w = (Ok (ROid oid), w1) -> whois idp w tok = Ok i ->
    history e v io idp d (only oid) w1 evs w2 -> Forall event_ok evs -> Forall (fun ev => ~ about oid ev) evs ->
    run (call (CGetAccessGroups tok' oid)) w2 = (Ok (RGroups gs), w3) ->
    exists l, gs = Some l /\ (forall x, x ∈ l <-> exists g, In g (i_id i :: groups) /\ reads_back g x) /\
      (Forall Utf8 (i_id i :: groups) -> l = list_to_set (i_id i :: groups)).
  Proof.
    intros Hi Hr Hw HH Hok Hq Hc.
    destruct (after_encrypt tok obj groups w oid w1 evs w2 i _ _ w3 Hi Hr Hw HH Hok Hq Hc eq_refl) as (m & m' & Hm & Hs).
    cbn [spec_step outside_of call_token o_who] in Hs. unfold with_access, with_scope in Hs.
    destruct (whois idp w2 tok') as [j|x|]; [|destruct Hs as [Hs _]; discriminate..].
    destruct Hs as [[_ [Hs _]]|[_ Hs]]; [discriminate|]. rewrite Hm in Hs. destruct Hs as [[_ [Hs _]]|[_ [Hs _]]]; [discriminate|].
    exists (list_to_set (map as_text (i_id i :: groups))). split; [congruence|]. split.
    - intros x. split.
      + intros H. apply elem_of_list_to_set, elem_of_list_In, in_map_iff in H as (g & H1 & H2). exists g. split; [exact H2|]. apply reads_back_iff. now symmetry.
      + intros (g & H1 & H2). apply elem_of_list_to_set, elem_of_list_In, in_map_iff. exists g. split; [|exact H1]. symmetry. now apply reads_back_iff.
    - intros HU. now rewrite as_text_map.
  Qed.
End Groups.

(** ** Index identifiers *)
Lemma listing_from kw evs : forall l x, In x (fold_left (ix_effect kw) evs l) ->
  In x l \/ exists ev tok y r, In ev evs /\ iv_call ev = IAdd tok kw y /\ iv_reply ev = Ok r /\ x = as_text y.
Proof.
  induction evs as [|ev evs IH]; intros l x H; [now left|]. cbn [fold_left] in H. apply IH in H as [H|(ev' & tok & y & r & H1 & H2)].
  - unfold ix_effect in H. destruct (iv_call ev) as [tok kw' y|tok kw'|tok kw' y] eqn:Ec; destruct (iv_reply ev) as [r|z|] eqn:Er; auto.
    + destruct (bytes_eqb kw' kw) eqn:Ek; auto. apply bytes_eqb_eq in Ek. subst kw'. apply in_app_or in H as [H|[<-|[]]]; auto.
      right. exists ev, tok, y, r. split; [now left|]. auto.
    + destruct (bytes_eqb kw' kw) eqn:Ek; auto. unfold without in H. apply filter_In in H as [H _]. auto.
  - right. exists ev', tok, y, r. split; [now right|exact H2].
Qed.
Lemma index_text {S I} (e : env) (v : view S) (idp : bytes -> prog (world S I) (res identity)) (io : provider S)
    ks iek fuel (w : world S I) pre x tok kw l post w' :
  let evs := pre ++ mkIxEvent x (ISearch tok kw) (Ok (IRIds l)) :: post in
  io_spec False v io -> idp_reads v idp -> ix_new ks = Ok iek -> ix_fresh v w ->
  ix_run e v idp iek fuel io w evs w' ->
  labels_differ iek (ev_keywords evs) (adds (map iv_call evs)) -> adds (map iv_call evs) < 2 ^ 64 -> (count_adds (map iv_call evs) < fuel)%nat ->
  (forall ev, In ev pre -> ~ botched kw ev) ->
  forall z, In z l -> exists ev tok' y rep, In ev pre /\ iv_call ev = IAdd tok' kw y /\ iv_reply ev = Ok rep /\ reads_back y z /\ (Utf8 y -> z = y).
Proof.
  intros evs H1 H2 H3 H4 H5 H6 H7 H8 H9 z Hz.
  pose proof (index_search e v idp io ks iek fuel w pre x tok kw _ post w' H1 H2 H3 H4 H5 H6 H7 H8 H9) as E. injection E as ->.
  apply listing_from in Hz as [[]|(ev & tok' & y & r & G1 & G2 & G3 & ->)]. exists ev, tok', y, r. repeat (split; [assumption|]).
  split; [now apply reads_back_iff|]. apply as_text_utf8.
Qed.

(** ** Strings that are not UTF-8 *)
Definition repl : bytes := utf8_char 65533.
Definition odd_who (tok : bytes) : res identity :=
  if bytes_eqb tok tok_alice then Ok (mkIdentity [xff] ScopeAll ∅)
  else if bytes_eqb tok tok_bob then Ok (mkIdentity (str "bob") ScopeAll {[ repl := ScopeAll ]})
  else if bytes_eqb tok tok_carol then Ok (mkIdentity (str "carol") ScopeAll {[ [xfe] := ScopeAll ]})
  else Err EIdNotAuthenticated.
Definition odd_idp {S : Type} (tok : bytes) : prog (world S unit) (res identity) := Ret (odd_who tok).
Lemma odd_idp_reads {S} (v : view S) : idp_reads v (@odd_idp S).
Proof. intros tok w m H. apply wpc_ret; auto. Qed.
Notation odd_run c := (run (d1_aes demo_env Mem odd_idp demo_d1 c)).
Definition odd_acl : gset bytes := list_to_set [repl; repl].
Lemma odd_encrypt : exists oid w1, odd_run (CEncrypt tok_alice demo_obj [[xfe]]) demo_w = (Ok (ROid oid), w1).
Proof.
  destruct (odd_run (CEncrypt tok_alice demo_obj [[xfe]]) demo_w) as [r w1] eqn:E.
  destruct (spec_sim demo_env mem_view Mem (mem_spec False) odd_idp (odd_idp_reads mem_view) demo_d1 all_ids demo_w _ r w1 ∅ E Logic.I) as (m' & Hs & _).
  - apply (fresh_rep mem_view demo_d1 all_ids demo_w). apply demo_fresh.
  - intros o [=].
  - unfold ev_in. destruct (ev_oid _); reflexivity.
  - cbn [spec_step outside_of call_token o_who o_id o_rng_fails] in Hs. unfold with_scope, or_random in Hs.
    change (whois odd_idp demo_w tok_alice) with (Ok (mkIdentity [xff] ScopeAll ∅)) in Hs. cbn iota beta in Hs. cbn [i_scopes] in Hs.
    destruct Hs as [[N _]|[_ [[N _]|(oid & Ho & Hs)]]].
    + destruct N. now apply scope_contains_has.
    + destruct (demo_rng _ N).
    + rewrite lookup_empty in Hs. destruct Hs as [-> _]. eauto.
Qed.
Lemma odd_in g : g ∈ odd_acl <-> g = repl.
Proof. unfold odd_acl. generalize repl. intros r. set_solver. Qed.
Lemma odd_mapped : list_to_set (map as_text [[xff]; [xfe]]) = odd_acl.
Proof. reflexivity. Qed.
Lemma odd_step oid w1 w2 evs c r w3 : odd_run (CEncrypt tok_alice demo_obj [[xfe]]) demo_w = (Ok (ROid oid), w1) ->
  history demo_env mem_view Mem odd_idp demo_d1 (only oid) w1 evs w2 -> Forall event_ok evs -> Forall (fun ev => ~ about oid ev) evs ->
  odd_run c w2 = (r, w3) -> call_oid c = Some oid ->
  exists m m', m !! oid = Some (demo_obj, odd_acl) /\ spec_step (outside_of demo_env odd_idp w2 c w3) c m r m'.
Proof.
  intros E HH H1 H2 Hc Ho.
  destruct (after_encrypt demo_env mem_view Mem (mem_spec False) odd_idp (odd_idp_reads mem_view) demo_d1 tok_alice demo_obj [[xfe]] demo_w oid w1 evs w2
    (mkIdentity [xff] ScopeAll ∅) c r w3 Logic.I E eq_refl HH H1 H2 Hc Ho) as (m & m' & Hm & Hs).
  exists m, m'. rewrite <- odd_mapped. auto.
Qed.
Lemma odd_refused oid w1 c tok i need : odd_run (CEncrypt tok_alice demo_obj [[xfe]]) demo_w = (Ok (ROid oid), w1) ->
  call_oid c = Some oid -> call_token c = Some tok -> call_scope c = Some need -> odd_who tok = Ok i -> ~ on_list i need odd_acl ->
  fst (odd_run c w1) = Err ED1NotAuthorized.
Proof.
  intros E Ho Ht Hn Hi Hl. destruct (odd_run c w1) as [r w3] eqn:Ec.
  destruct (odd_step oid w1 w1 [] c r w3 E (h_nil _ _ _ _ _ _ _) (List.Forall_nil _) (List.Forall_nil _) Ec Ho) as (m & m' & Hm & Hs).
  assert (G : o_who (outside_of demo_env odd_idp w1 c w3) = Ok i) by (unfold outside_of; rewrite Ht; exact Hi).
  cbn [fst]. clear E Ec. destruct c; try discriminate Ho; injection Ho as ->; injection Hn as <-;
    cbn [spec_step] in Hs; unfold with_access, with_scope, refuse in Hs; rewrite G, Hm in Hs;
    (destruct Hs as [[_ [-> _]]|[_ [[_ [-> _]]|[Hs _]]]]; [reflexivity..|contradiction]).
Qed.
Lemma odd_served oid w1 c tok i need : odd_run (CEncrypt tok_alice demo_obj [[xfe]]) demo_w = (Ok (ROid oid), w1) ->
  call_oid c = Some oid -> call_token c = Some tok -> call_scope c = Some need -> odd_who tok = Ok i -> scope_has (i_scopes i) need -> on_list i need odd_acl ->
  fst (odd_run c w1) = Ok match c with CDecrypt _ _ => RObject demo_obj | CGetAccessGroups _ _ => RGroups (Some odd_acl) | _ => RUnit end.
Proof.
  intros E Ho Ht Hn Hi Hsc Hl. destruct (odd_run c w1) as [r w3] eqn:Ec.
  destruct (odd_step oid w1 w1 [] c r w3 E (h_nil _ _ _ _ _ _ _) (List.Forall_nil _) (List.Forall_nil _) Ec Ho) as (m & m' & Hm & Hs).
  assert (G : o_who (outside_of demo_env odd_idp w1 c w3) = Ok i) by (unfold outside_of; rewrite Ht; exact Hi).
  assert (NR : forall P, or_random (o_rng_fails (outside_of demo_env odd_idp w1 c w3)) m r m' P -> P).
  { intros P [[N _]|N]; [|exact N]. unfold outside_of in N. rewrite Ht in N. destruct (demo_rng _ N). }
  cbn [fst]. clear E Ec. destruct c; try discriminate Ho; injection Ho as ->; injection Hn as <-;
    cbn [spec_step] in Hs; unfold with_access, with_scope in Hs; rewrite G, Hm in Hs;
    (destruct Hs as [[Hs _]|[_ [[Hs _]|[_ Hs]]]]; [contradiction..|]); try apply NR in Hs; destruct Hs as [-> _]; reflexivity.
Qed.
Lemma odd_objects : exists oid w1,
  odd_run (CEncrypt tok_alice demo_obj [[xfe]]) demo_w = (Ok (ROid oid), w1) /\
  fst (odd_run (CDecrypt tok_alice oid) w1) = Err ED1NotAuthorized /\
  fst (odd_run (CDecrypt tok_carol oid) w1) = Err ED1NotAuthorized /\
  fst (odd_run (CDecrypt tok_bob oid) w1) = Ok (RObject demo_obj) /\
  fst (odd_run (CGetAccessGroups tok_bob oid) w1) = Ok (RGroups (Some {[ repl ]})) /\
  repl <> [xff] /\ repl <> [xfe] /\ repl <> str "bob".
Proof.
  destruct odd_encrypt as (oid & w1 & E). exists oid, w1. split; [exact E|].
  assert (HA : forall need, scope_contains ScopeAll need = true -> scope_has ScopeAll need) by (intros need; apply scope_contains_has).
  assert (HB : forall need, scope_contains ScopeAll need = true -> on_list (mkIdentity (str "bob") ScopeAll {[ repl := ScopeAll ]}) need odd_acl).
  { intros need Hn. right. exists repl, ScopeAll. split; [apply lookup_singleton|]. split; [now apply odd_in|auto]. }
  split; [|split; [|split; [|split]]].
  - eapply odd_refused; [exact E|reflexivity..|]. intros [[H _]|(g & s & H & _)].
    + apply odd_in in H. discriminate.
    + cbn [i_groups] in H. rewrite lookup_empty in H. discriminate.
  - eapply odd_refused; [exact E|reflexivity..|]. intros [[H _]|(g & s & H & Hg & _)].
    + apply odd_in in H. discriminate.
    + cbn [i_groups] in H. apply lookup_singleton_Some in H as [<- _]. apply odd_in in Hg. discriminate.
  - eapply (odd_served oid w1 (CDecrypt tok_bob oid)); [exact E|reflexivity..|now apply HA|now apply HB].
  - replace ({[repl]} : gset bytes) with odd_acl by (apply set_eq; intros g; rewrite odd_in; split; [intros ->; now apply elem_of_singleton|apply elem_of_singleton]).
    eapply (odd_served oid w1 (CGetAccessGroups tok_bob oid)); [exact E|reflexivity..|now apply HA|now apply HB].
  - repeat split; discriminate.
Qed.
Lemma odd_index : exists evs w', ix_run demo_env mem_view demo_idp demo_iek 9 Mem demo_w evs w' /\
  map iv_call evs = [IAdd tok_alice dog [xff]; ISearch tok_alice dog; IDelete tok_alice dog [xff]; ISearch tok_alice dog] /\
  map iv_reply evs = [Ok IRUnit; Ok (IRIds [repl]); Ok IRUnit; Ok (IRIds [repl])].
Proof.
  destruct (ixdo (IAdd tok_alice dog [xff]) demo_w) as [r1 w1] eqn:E1.
  destruct (ixdo (ISearch tok_alice dog) w1) as [r2 w2] eqn:E2.
  destruct (ixdo (IDelete tok_alice dog [xff]) w2) as [r3 w3] eqn:E3.
  destruct (ixdo (ISearch tok_alice dog) w3) as [r4 w4] eqn:E4.
  pose proof (ir_call demo_env mem_view demo_idp demo_iek 9 Mem _ (IAdd tok_alice dog [xff]) _ _ _ _ E1
    (ir_call demo_env mem_view demo_idp demo_iek 9 Mem _ (ISearch tok_alice dog) _ _ _ _ E2
    (ir_call demo_env mem_view demo_idp demo_iek 9 Mem _ (IDelete tok_alice dog [xff]) _ _ _ _ E3
    (ir_call demo_env mem_view demo_idp demo_iek 9 Mem _ (ISearch tok_alice dog) _ _ _ _ E4
    (ir_nil demo_env mem_view demo_idp demo_iek 9 Mem w4))))) as HR.
  eexists. exists w4. split; [exact HR|]. split; [reflexivity|].
  destruct (index_refines demo_env mem_view demo_idp Mem (Ok demo_ix_keys) demo_iek 9 demo_w _ w4 (mem_spec False) (demo_idp_reads mem_view) eq_refl demo_ix_fresh HR) as [m Hm].
  { apply (differ_incl _ _ _ _ _ demo_differ); [cbn [map iv_call ix_keyword In]; tauto|cbn; lia]. }
  { cbn. lia. }
  { cbn. lia. }
  clear HR E1 E2 E3 E4. cbn [map iv_reply].
  inversion Hm as [|? ? m1 ? ? S1 H1]; subst; clear Hm. inversion H1 as [|? ? m2 ? ? S2 H2]; subst; clear H1.
  inversion H2 as [|? ? m3 ? ? S3 H3]; subst; clear H2. inversion H3 as [|? ? m4 ? ? S4 H4]; subst; clear H3.
  cbn [iv_x iv_call iv_reply] in *.
  apply demo_ok in S1 as [-> [B1 O1]]; [|reflexivity]. apply demo_ok in S2 as [-> B2]; [|reflexivity].
  apply demo_ok in S3 as [-> [B3 O3]]; [|reflexivity]. apply demo_ok in S4 as [-> B4]; [|reflexivity].
  assert (D1 : m1 dog = [repl]) by (rewrite B1; reflexivity).
  assert (D3 : m3 dog = [repl]) by (rewrite B3, B2, D1; reflexivity).
  rewrite D1, D3. reflexivity.
Qed.
Lemma odd_objects_refuted :
  odd_who tok_alice = Ok (mkIdentity [xff] ScopeAll ∅) /\
  odd_who tok_bob = Ok (mkIdentity (str "bob") ScopeAll {[ utf8_char 65533 := ScopeAll ]}) /\
  odd_who tok_carol = Ok (mkIdentity (str "carol") ScopeAll {[ [xfe] := ScopeAll ]}) /\
  exists oid w1, odd_run (CEncrypt tok_alice demo_obj [[xfe]]) demo_w = (Ok (ROid oid), w1) /\
    fst (odd_run (CDecrypt tok_alice oid) w1) = Err ED1NotAuthorized /\
    fst (odd_run (CDecrypt tok_carol oid) w1) = Err ED1NotAuthorized /\
    fst (odd_run (CDecrypt tok_bob oid) w1) = Ok (RObject demo_obj) /\
    fst (odd_run (CGetAccessGroups tok_bob oid) w1) = Ok (RGroups (Some {[ utf8_char 65533 ]})).
Proof.
  split; [reflexivity|]. split; [reflexivity|]. split; [reflexivity|].
  destruct odd_objects as (oid & w1 & H1 & H2 & H3 & H4 & H5 & _). exists oid, w1.
  split; [exact H1|]. split; [exact H2|]. split; [exact H3|]. split; [exact H4|exact H5].
Qed.
