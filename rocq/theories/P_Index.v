(** Properties of the secure index.

    [ix_run] is a history of complete calls through one provider that does not fail, [ix_xrun] one in
    which every call may be cut after any number of steps and the storage may fail, with a provider of
    its own for each call.  In both, anything may happen between the calls except to the stored
    nodes, and every index starts empty ([ix_fresh]).

    [labels_differ] says that the labels the index computes with KMAC for the keywords of the history,
    and for node numbers up to the number of Adds, differ; nothing can be proved about KMAC itself.
    The lists and what calls do to them are specified in IndexSpec.v. *)
From stdpp Require Import gmap.
From Verif Require Import Bytes Go Types World Io IoSpec IoProofs Id Data D1 D1Proofs Spec SpecProofs Demo
  Index IndexSpec IndexHist IndexCost IndexFacts IndexDemo.
Local Open Scope N_scope.

(** C42.  Every history is a history of lists per keyword. *)
Theorem C42_index_refines_lists {S I} (e : env) (v : view S) (idp : bytes -> prog (world S I) (res identity)) (io : provider S)
    (ks : res keys) (iek : bytes) (fuel : nat) (w w' : world S I) (evs : list ix_event) :
  io_spec False v io -> idp_reads v idp -> ix_new ks = Ok iek -> ix_fresh v w ->
  ix_run e v idp iek fuel io w evs w' ->
  labels_differ iek (ev_keywords evs) (adds (map iv_call evs)) -> adds (map iv_call evs) < 2 ^ 64 -> (count_adds (map iv_call evs) < fuel)%nat ->
  exists m, ix_history index_empty evs m.
Proof. exact (index_refines e v idp io ks iek fuel w evs w'). Qed.
Print Assumptions C42_index_refines_lists.
(** Search returns what the calls that succeeded before have added and not deleted, in order. *)
Theorem C42_search {S I} (e : env) (v : view S) (idp : bytes -> prog (world S I) (res identity)) (io : provider S)
    (ks : res keys) (iek : bytes) (fuel : nat) (w w' : world S I) (pre post : list ix_event) (x : ix_outside) (tok kw : bytes) (rep : ix_reply) :
  let evs := pre ++ mkIxEvent x (ISearch tok kw) (Ok rep) :: post in
  io_spec False v io -> idp_reads v idp -> ix_new ks = Ok iek -> ix_fresh v w ->
  ix_run e v idp iek fuel io w evs w' ->
  labels_differ iek (ev_keywords evs) (adds (map iv_call evs)) -> adds (map iv_call evs) < 2 ^ 64 -> (count_adds (map iv_call evs) < fuel)%nat ->
  (forall ev, In ev pre -> ~ botched kw ev) ->
  rep = IRIds (ix_listing kw pre).
Proof. exact (index_search e v idp io ks iek fuel w pre x tok kw rep post w'). Qed.
Print Assumptions C42_search.
(** Two keywords, an addition to each, and a deletion. *)
Example C42_case : exists evs w', ix_run demo_env mem_view demo_idp demo_iek 9 Mem demo_w evs w' /\
  io_spec False mem_view Mem /\ idp_reads mem_view (@demo_idp (gmap bytes bytes)) /\ ix_new (Ok demo_ix_keys) = Ok demo_iek /\ ix_fresh mem_view demo_w /\
  labels_differ demo_iek (ev_keywords evs) (adds (map iv_call evs)) /\ adds (map iv_call evs) < 2 ^ 64 /\ (count_adds (map iv_call evs) < 9)%nat /\
  map iv_call evs = [IAdd tok_alice dog id1; IAdd tok_alice cat id2; ISearch tok_alice dog; IDelete tok_alice dog id1; ISearch tok_alice dog; ISearch tok_alice cat] /\
  map iv_reply evs = [Ok IRUnit; Ok IRUnit; Ok (IRIds [id1]); Ok IRUnit; Ok (IRIds []); Ok (IRIds [id2])].
Proof. exact demo_case. Qed.

(** C43.  After any history, however badly interrupted, a call ends, and the storage sees at most four
    operations per entry of the keyword and five more, besides those of the identity provider.
    [fuel2] bounds the loops of the model; that the bound plays no part, so that the unbounded loops of
    the code end too, is the claim [r <> Err EFuel]. *)
Theorem C43_index_calls_end {S I} (e : env) (v : view S) (idp : bytes -> prog (world (S * N) I) (res identity)) (io : provider S)
    (ks : res keys) (iek : bytes) (fuel : nat) (w w' : world (S * N) I) (hs : list ix_happening) (a : N) (c : ix_call) :
  let kws := ix_keyword c :: hap_keywords hs in
  let n := adds (c :: map hap_call hs) in
  io_spec True v io -> idp_reads (counted_view v) idp -> (forall tok w0, ops (snd (run (idp tok) w0)) <= ops w0 + a) ->
  ix_new ks = Ok iek -> ix_fresh (counted_view v) w ->
  ix_xrun e (counted_view v) idp iek fuel w hs w' ->
  labels_differ iek kws n -> n < 2 ^ 64 -> n < N.of_nat fuel ->
  exists m, ix_xhistory [] index_empty hs m /\
    (forall tok rep fuel2, (length (m (ix_keyword c)) < fuel2)%nat ->
       fst (run (ix_do e (counted io) idp iek fuel2 (ISearch tok (ix_keyword c))) w') = Ok rep -> rep = IRIds (m (ix_keyword c))) /\
    forall fuel2, (length (m (ix_keyword c)) < fuel2)%nat ->
      let '(r, w2) := run (ix_do e (counted io) idp iek fuel2 c) w' in
      r <> Err EFuel /\ ops w2 <= ops w' + a + 4 * N.of_nat (length (m (ix_keyword c))) + 5.
Proof. exact (index_terminates e v idp io ks iek fuel w hs w' a c). Qed.
Print Assumptions C43_index_calls_end.
Example C43_case : exists w hs w', ix_xrun demo_env (counted_view mem_view) demo_idp demo_iek 9 w hs w' /\ length hs = 2%nat /\
  ix_fresh (counted_view mem_view) w /\ idp_reads (counted_view mem_view) (@demo_idp (gmap bytes bytes * N)) /\
  (forall tok (w0 : world (gmap bytes bytes * N) unit), ops (snd (run (demo_idp tok) w0)) <= ops w0 + 0) /\
  let c := IDelete tok_alice dog id1 in
  labels_differ demo_iek (ix_keyword c :: hap_keywords hs) (adds (c :: map hap_call hs)) /\ adds (c :: map hap_call hs) < N.of_nat 9.
Proof. exact demo_cost_case. Qed.

(** C44, what holds.  With calls cut anywhere and the storage failing anywhere, the index still is a
    list per keyword, changed only as [ix_xhistory] says: a Delete that did not succeed removes some
    occurrences of its identifier and nothing else, an Add that did not succeed is done or not, and
    an Add may bring back identifiers, but only ones added before for that keyword, and only if a
    Delete for that keyword was interrupted before. *)
Theorem C44_interrupted_calls {S I} (e : env) (v : view S) (idp : bytes -> prog (world S I) (res identity))
    (ks : res keys) (iek : bytes) (fuel : nat) (w w' : world S I) (hs : list ix_happening) :
  idp_reads v idp -> ix_new ks = Ok iek -> ix_fresh v w ->
  ix_xrun e v idp iek fuel w hs w' ->
  labels_differ iek (hap_keywords hs) (adds (map hap_call hs)) -> adds (map hap_call hs) < 2 ^ 64 -> (count_adds (map hap_call hs) < fuel)%nat ->
  exists m, ix_xhistory [] index_empty hs m.
Proof. exact (index_interrupted e v idp ks iek fuel w hs w'). Qed.
Print Assumptions C44_interrupted_calls.
(** What Search shows before and after a Delete, whether it succeeds, fails or dies. *)
Theorem C44_delete_thins {S I} (e : env) (v : view S) (idp : bytes -> prog (world S I) (res identity))
    (ks : res keys) (iek : bytes) (fuel : nat) (w w' : world S I) (pre post : list ix_happening)
    (x1 x2 : ix_outside) (h : ix_happening) (tok1 tok tok2 kw y : bytes) (l1 l2 : list bytes) :
  let hs := pre ++ XDone (mkIxEvent x1 (ISearch tok1 kw) (Ok (IRIds l1))) :: h :: XDone (mkIxEvent x2 (ISearch tok2 kw) (Ok (IRIds l2))) :: post in
  hap_call h = IDelete tok kw y ->
  idp_reads v idp -> ix_new ks = Ok iek -> ix_fresh v w ->
  ix_xrun e v idp iek fuel w hs w' ->
  labels_differ iek (hap_keywords hs) (adds (map hap_call hs)) -> adds (map hap_call hs) < 2 ^ 64 -> (count_adds (map hap_call hs) < fuel)%nat ->
  thinned y l1 l2.
Proof. exact (index_sandwich e v idp ks iek fuel w pre x1 tok1 kw l1 h tok y x2 tok2 l2 post w'). Qed.
Print Assumptions C44_delete_thins.
Example C44_thins_case : exists x1 x2 x3 x5 w',
  ix_xrun demo_env mem_view demo_idp demo_iek 9 demo_w
    [XDone (mkIxEvent x1 (IAdd tok_alice dog id1) (Ok IRUnit)); XDone (mkIxEvent x2 (IAdd tok_alice dog id1) (Ok IRUnit));
     XDone (mkIxEvent x3 (ISearch tok_alice dog) (Ok (IRIds [id1; id1]))); XCut (IDelete tok_alice dog id1);
     XDone (mkIxEvent x5 (ISearch tok_alice dog) (Ok (IRIds [id1])))] w' /\
  labels_differ demo_iek [dog; dog; dog; dog; dog] 2.
Proof. exact demo_half_gone. Qed.
(** C44, what does not: Delete dies, is retried and succeeds, and the deleted identifier comes back
    with the next Add of another one. *)
Theorem C44_deleted_comes_back_refuted : exists x1 x2 x4 x5 x6 w',
  ix_xrun demo_env mem_view demo_idp demo_iek 9 demo_w
    [XDone (mkIxEvent x1 (IAdd tok_alice dog id1) (Ok IRUnit)); XDone (mkIxEvent x2 (IAdd tok_alice dog id1) (Ok IRUnit));
     XCut (IDelete tok_alice dog id1); XDone (mkIxEvent x4 (IDelete tok_alice dog id1) (Ok IRUnit));
     XDone (mkIxEvent x5 (IAdd tok_alice dog id2) (Ok IRUnit)); XDone (mkIxEvent x6 (ISearch tok_alice dog) (Ok (IRIds [id2; id1])))] w'.
Proof. exact demo_comes_back. Qed.
Print Assumptions C44_deleted_comes_back_refuted.
