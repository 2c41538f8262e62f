(** C47: what strings look like when they come back from storage.

    [reads_back s t] is specified in Spec.v: characters encoded in UTF-8 are kept, any other byte is
    replaced by U+FFFD.  [as_text] is the function that computes it, used by the specifications of the
    object map and of the index. *)
From stdpp Require Import gmap.
From Verif Require Import Bytes Go Uuid Types World Io IoSpec IoProofs Id D1 D1Proofs Spec SpecProofs History Claims Demo
  Index IndexSpec IndexHist IndexFacts IndexDemo TextProofs.
Local Open Scope N_scope.

Theorem C47_reads_back : forall s t, reads_back s t <-> t = as_text s.
Proof. exact reads_back_iff. Qed.
Print Assumptions C47_reads_back.
(** The strings that survive are exactly the well-formed ones. *)
Theorem C47_survives : forall s, reads_back s s <-> Utf8 s.
Proof. intros s. rewrite reads_back_iff, <- as_text_exact. split; congruence. Qed.
Print Assumptions C47_survives.

(** An object was encrypted, and the calls since were not about it: the access list consists of what the
    caller's id and the groups passed to Encrypt read back as, and is the very set of them if all are
    UTF-8. *)
Theorem C47_groups_partial {S I} (e : env) (v : view S) (io : provider S) (storage : io_spec False v io)
    (idp : bytes -> prog (world S I) (res identity)) (idp_reads : idp_reads v idp) (d : d1)
    (tok tok' : bytes) (obj : object) (groups : list bytes) (w w1 w2 w3 : world S I) (oid : uuid) (evs : list event)
    (i : identity) (gs : option (gset bytes))
    (inv : v_inv v (w_io w))
    (encrypted : run (d1_aes e io idp d (CEncrypt tok obj groups)) w = (Ok (ROid oid), w1)) (caller : whois idp w tok = Ok i)
    (then_ : history e v io idp d (only oid) w1 evs w2) (evs_ok : Forall event_ok evs) (quiet : Forall (fun ev => ~ about oid ev) evs)
    (asked : run (d1_aes e io idp d (CGetAccessGroups tok' oid)) w2 = (Ok (RGroups gs), w3)) :
  exists l, gs = Some l /\ (forall x, x ∈ l <-> exists g, In g (i_id i :: groups) /\ reads_back g x) /\
    (Forall Utf8 (i_id i :: groups) -> l = list_to_set (i_id i :: groups)).
Proof. exact (groups_read e v io storage idp idp_reads d tok obj groups w oid w1 evs w2 tok' i gs w3 inv encrypted caller then_ evs_ok quiet asked). Qed.
Print Assumptions C47_groups_partial.

(** Every identifier Search returns is what some added identifier reads back as, and the identifier
    itself if that is UTF-8. *)
Theorem C47_identifiers_partial {S I} (e : env) (v : view S) (idp : bytes -> prog (world S I) (res identity)) (io : provider S)
    (ks : res keys) (iek : bytes) (fuel : nat) (w w' : world S I) (pre post : list ix_event) (x : ix_outside) (tok kw : bytes) (l : list bytes) :
  let evs := pre ++ mkIxEvent x (ISearch tok kw) (Ok (IRIds l)) :: post in
  io_spec False v io -> idp_reads v idp -> ix_new ks = Ok iek -> ix_fresh v w ->
  ix_run e v idp iek fuel io w evs w' ->
  labels_differ iek (ev_keywords evs) (adds (map iv_call evs)) -> adds (map iv_call evs) < 2 ^ 64 -> (count_adds (map iv_call evs) < fuel)%nat ->
  (forall ev, In ev pre -> ~ botched kw ev) ->
  forall z, In z l -> exists ev tok' y rep, In ev pre /\ iv_call ev = IAdd tok' kw y /\ iv_reply ev = Ok rep /\ reads_back y z /\ (Utf8 y -> z = y).
Proof. exact (index_text e v idp io ks iek fuel w pre x tok kw l post w'). Qed.
Print Assumptions C47_identifiers_partial.
(** [P_Index.C42_case] is a history that meets these hypotheses. *)

(** C47 fails for other strings.  Alice's id is the byte 0xff, and Alice shares an object with the group
    0xfe, which Carol is in: neither can open it.  Bob can, being in the group U+FFFD, which nobody named. *)
Theorem C47_groups_refuted :
  odd_who tok_alice = Ok (mkIdentity [xff] ScopeAll ∅) /\
  odd_who tok_bob = Ok (mkIdentity (str "bob") ScopeAll {[ utf8_char 65533 := ScopeAll ]}) /\
  odd_who tok_carol = Ok (mkIdentity (str "carol") ScopeAll {[ [xfe] := ScopeAll ]}) /\
  exists oid w1, run (d1_aes demo_env Mem odd_idp demo_d1 (CEncrypt tok_alice demo_obj [[xfe]])) demo_w = (Ok (ROid oid), w1) /\
    fst (run (d1_aes demo_env Mem odd_idp demo_d1 (CDecrypt tok_alice oid)) w1) = Err ED1NotAuthorized /\
    fst (run (d1_aes demo_env Mem odd_idp demo_d1 (CDecrypt tok_carol oid)) w1) = Err ED1NotAuthorized /\
    fst (run (d1_aes demo_env Mem odd_idp demo_d1 (CDecrypt tok_bob oid)) w1) = Ok (RObject demo_obj) /\
    fst (run (d1_aes demo_env Mem odd_idp demo_d1 (CGetAccessGroups tok_bob oid)) w1) = Ok (RGroups (Some {[ utf8_char 65533 ]})).
Proof. exact odd_objects_refuted. Qed.
Print Assumptions C47_groups_refuted.
(** The index returns U+FFFD for the identifier 0xff, and deleting 0xff succeeds without effect. *)
Theorem C47_identifiers_refuted : exists evs w', ix_run demo_env mem_view demo_idp demo_iek 9 Mem demo_w evs w' /\
  map iv_call evs = [IAdd tok_alice dog [xff]; ISearch tok_alice dog; IDelete tok_alice dog [xff]; ISearch tok_alice dog] /\
  map iv_reply evs = [Ok IRUnit; Ok (IRIds [utf8_char 65533]); Ok IRUnit; Ok (IRIds [utf8_char 65533])].
Proof. exact odd_index. Qed.
Print Assumptions C47_identifiers_refuted.
