(** Properties C45 and C52: index calls that overlap.  [ix_conc] interleaves the steps of calls that
    are made at any time, in any order; [tr] is what an observer sees of it: calls, numbered in the
    order they are made, and replies. *)
From stdpp Require Import gmap.
From Verif Require Import Bytes Go Types World Io IoSpec IoProofs Id Data D1 D1Proofs Spec SpecProofs Demo
  Index IndexSpec IndexConcSpec IndexHist IndexFacts IndexDemo IndexConc IndexConcDemo.
Local Open Scope N_scope.

(** C45, for storage whose Get and Put are atomic, as those of Bolt are.  After any history of
    complete calls, Adds and Searches that overlap act as if one after the other, in an order that
    respects which call was answered before another was made; the calls that fail do so for one of the
    reasons of [ix_refused] and have no effect. *)
Theorem C45_linearizable {S I} (e : env) (v : view S) (io : provider S) (idp : bytes -> prog (world S I) (res identity)) (ks : res keys) (iek : bytes) (fuel : nat)
    (w w1 w2 : world S I) (evs : list ix_event) (tr : list ix_obs) (pool : list (prog (world S I) (res ix_reply))) :
  forall (storage : io_spec False v io) (storage_atomic : atomic_get_put v io) (idp_reads : forall tok, only_reads v (idp tok))
    (new : ix_new ks = Ok iek) (empty : ix_fresh v w)
    (before : ix_run e v idp iek fuel io w evs w1)
    (overlap : ix_conc e v idp iek fuel io [] w1 tr pool w2)
    (no_deletes : forall c, In c (obs_calls tr) -> forall tok kw y, c <> IDelete tok kw y),
  let calls := map iv_call evs ++ obs_calls tr in
  forall (few : N.of_nat (count_adds calls) < 2 ^ 64) (fuel_enough : (count_adds calls < fuel)%nat)
    (labels : labels_differ iek (map ix_keyword calls) (N.of_nat (count_adds calls))),
  exists m ds m', ix_history index_empty evs m /\ ix_linearizes m tr ds m' /\
    (forall t c r, nth_error (obs_calls tr) t = Some c -> In (OReply t r) tr -> (exists rep, r = Ok rep) \/ ix_refused c r).
Proof. exact (fun Hio Hat Hidp H1 H2 H3 H4 H5 => linearizable_flat e v io Hio Hat idp Hidp ks iek fuel w evs w1 tr pool w2 H1 H2 H3 H4 H5). Qed.
Print Assumptions C45_linearizable.

(** Hence: an identifier whose Add was answered with success is in every Search made later. *)
Theorem C45_adds_found {S I} (e : env) (v : view S) (io : provider S) (idp : bytes -> prog (world S I) (res identity)) (ks : res keys) (iek : bytes) (fuel : nat)
    (w w1 w2 : world S I) (evs : list ix_event) (tr1 tr2 : list ix_obs) (pool : list (prog (world S I) (res ix_reply)))
    (t : nat) (tok tok' kw y : bytes) (rep : ix_reply) (l : list bytes) :
  let tr := tr1 ++ OCall (ISearch tok' kw) :: tr2 in
  let calls := map iv_call evs ++ obs_calls tr in
  forall (storage : io_spec False v io) (storage_atomic : atomic_get_put v io) (idp_reads : forall tok, only_reads v (idp tok))
    (new : ix_new ks = Ok iek) (empty : ix_fresh v w)
    (before : ix_run e v idp iek fuel io w evs w1)
    (overlap : ix_conc e v idp iek fuel io [] w1 tr pool w2)
    (no_deletes : forall c, In c (obs_calls tr) -> forall tok kw y, c <> IDelete tok kw y)
    (few : N.of_nat (count_adds calls) < 2 ^ 64) (fuel_enough : (count_adds calls < fuel)%nat)
    (labels : labels_differ iek (map ix_keyword calls) (N.of_nat (count_adds calls)))
    (added : nth_error (obs_calls tr1) t = Some (IAdd tok kw y)) (answered : In (OReply t (Ok rep)) tr1)
    (search_answered : In (OReply (length (obs_calls tr1)) (Ok (IRIds l))) tr2),
  In (as_text y) l.
Proof. exact (adds_found e v io idp ks iek fuel w w1 w2 evs tr1 tr2 pool t tok tok' kw y rep l). Qed.
Print Assumptions C45_adds_found.

(** Bolt is such a storage, and here is such a run: of two Adds that overlap one fails, and a Search
    made after both were answered finds the other. *)
Example C45_case : exists pool w2,
  io_spec False bolt_view Bolt /\ atomic_get_put bolt_view Bolt /\ (forall tok, only_reads bolt_view (demo_idp tok : prog DW _)) /\
  ix_new (Ok demo_ix_keys) = Ok demo_iek /\ ix_fresh bolt_view demo_w /\ ix_run demo_env bolt_view demo_idp demo_iek 9 Bolt demo_w [] demo_w /\
  ix_conc demo_env bolt_view demo_idp demo_iek 9 Bolt [] demo_w
    [OCall (IAdd tok_alice dog id1); OCall (IAdd tok_alice dog id2); OReply 1 (Ok IRUnit); OReply 0 (Err EIxNodeAlreadyExists);
     OCall (ISearch tok_alice dog); OReply 2 (Ok (IRIds [id2]))] pool w2 /\
  (forall c, In c (obs_calls race_tr) -> forall tok kw y, c <> IDelete tok kw y) /\
  labels_differ demo_iek (map ix_keyword (obs_calls race_tr)) (N.of_nat (count_adds (obs_calls race_tr))).
Proof. exact demo_linearizable. Qed.

(** C45 fails for Mem: two Adds that overlap both succeed, and a Search made after both were answered
    finds one of them only.  No order of the calls explains that. *)
Theorem C45_mem_refuted :
  (exists pool w2, ix_conc demo_env mem_view demo_idp demo_iek 9 Mem [] demo_w
    [OCall (IAdd tok_alice dog id1); OCall (IAdd tok_alice dog id2); OReply 0 (Ok IRUnit); OReply 1 (Ok IRUnit);
     OCall (ISearch tok_alice dog); OReply 2 (Ok (IRIds [id2]))] pool w2) /\
  forall ds m', ~ ix_linearizes index_empty
    [OCall (IAdd tok_alice dog id1); OCall (IAdd tok_alice dog id2); OReply 0 (Ok IRUnit); OReply 1 (Ok IRUnit);
     OCall (ISearch tok_alice dog); OReply 2 (Ok (IRIds [id2]))] ds m'.
Proof. exact (conj mem_race lost_not_linear). Qed.
Print Assumptions C45_mem_refuted.

(** C52 fails even for Bolt: [id1] is the only identifier; while a Delete removes it, an Add of [id2]
    succeeds; a Search made after both were answered finds nothing. *)
Theorem C52_add_during_delete_refuted :
  (exists pool w2, ix_conc demo_env bolt_view demo_idp demo_iek 9 Bolt [] demo_w
    [OCall (IAdd tok_alice dog id1); OReply 0 (Ok IRUnit); OCall (IDelete tok_alice dog id1); OCall (IAdd tok_alice dog id2);
     OReply 2 (Ok IRUnit); OReply 1 (Ok IRUnit); OCall (ISearch tok_alice dog); OReply 3 (Ok (IRIds []))] pool w2) /\
  forall ds m', ~ ix_linearizes index_empty
    [OCall (IAdd tok_alice dog id1); OReply 0 (Ok IRUnit); OCall (IDelete tok_alice dog id1); OCall (IAdd tok_alice dog id2);
     OReply 2 (Ok IRUnit); OReply 1 (Ok IRUnit); OCall (ISearch tok_alice dog); OReply 3 (Ok (IRIds []))] ds m'.
Proof. exact (conj delete_race drop_not_linear). Qed.
Print Assumptions C52_add_during_delete_refuted.
