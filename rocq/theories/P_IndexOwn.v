(** C62: overlapping index calls act one after the other unless they are at odds.
    C63: a Search that overlaps a Delete may miss identifiers that stay in the index. *)
From stdpp Require Import gmap.
From Verif Require Import Bytes Go Types World Io IoSpec IoProofs Id Data D1 Spec Demo D1ConcSpec D1Conc
  Index IndexSpec IndexConcSpec IndexHist IndexDemo IndexOwnSpec IndexOwnAll IndexOwnDemo.
Local Open Scope N_scope.

(** C62.  Adds, Searches and Deletes are made from any number of goroutines over storage whose entries
    change in one step, steps interleaved in any way, and in between anything may happen except to the
    stored nodes.  If calls for the same keyword overlap only when both are Searches, then all calls act
    one after the other, each with the effect and the reply it has alone. *)
Theorem C62_in_turn {S I} (e : env) (v : view S) (io : provider S) (idp : bytes -> prog (world S I) (res identity)) (who : bytes -> res identity -> Prop)
    (ks : res keys) (iek : bytes) (fuel : nat) (w w' : world S I) (tr : list ix_obs) (pool : list (prog (world S I) (res ix_reply))) :
  forall (storage : cell_storage v io) (identity : forall tok, ix_answers v (idp tok) (who tok))
    (new : ix_new ks = Ok iek) (empty : ix_fresh v w)
    (overlap : ix_conc e v idp iek fuel io [] w tr pool w') (not_at_odds : ix_orderly tr)
    (few : N.of_nat (count_adds (obs_calls tr)) < 2 ^ 64) (fuel_enough : (count_adds (obs_calls tr) < fuel)%nat)
    (labels : labels_differ iek (map ix_keyword (obs_calls tr)) (N.of_nat (count_adds (obs_calls tr)))),
  exists ds m, ix_in_turn e who index_empty tr ds m.
Proof. exact (in_turn e v io idp who ks iek fuel w w' tr pool). Qed.
Print Assumptions C62_in_turn.

(** Mem and Bolt are such storage. *)
Theorem C62_storage : cell_storage mem_view Mem /\ cell_storage bolt_view Bolt.
Proof. exact (conj mem_cells bolt_cells). Qed.
Print Assumptions C62_storage.

(** Such a run: an Add for "dog" overlaps one for "cat"; then a Delete for "dog" overlaps two Searches for
    "cat", which overlap each other. *)
Example C62_case : exists pool w1,
  cell_storage mem_view Mem /\ (forall tok, ix_answers mem_view (demo_idp tok : prog DW _) (fun r => r = demo_who tok)) /\
  ix_new (Ok demo_ix_keys) = Ok demo_iek /\ ix_fresh mem_view demo_w /\ ix_conc demo_env mem_view demo_idp demo_iek 9 Mem [] demo_w
    [OCall (IAdd tok_alice dog id1); OCall (IAdd tok_alice cat id2); OReply 1 (Ok IRUnit); OReply 0 (Ok IRUnit);
     OCall (IDelete tok_alice dog id1); OCall (ISearch tok_alice cat); OCall (ISearch tok_alice cat);
     OReply 3 (Ok (IRIds [id2])); OReply 2 (Ok IRUnit); OReply 4 (Ok (IRIds [id2]))] pool w1 /\
  ix_orderly pair_tr /\ labels_differ demo_iek (map ix_keyword (obs_calls pair_tr)) (N.of_nat (count_adds (obs_calls pair_tr))).
Proof. exact pair_case. Qed.

(** C63 fails, even for Bolt: [id1] and [id2] are in the index when a Search and a Delete of [id1] are made;
    the Search answers [id1] alone.  Nobody asked for [id2] to be deleted.  No order of the calls explains that. *)
Theorem C63_search_during_delete_refuted :
  (exists pool w1, ix_conc demo_env bolt_view demo_idp demo_iek 9 Bolt [] demo_w
    [OCall (IAdd tok_alice dog id1); OReply 0 (Ok IRUnit); OCall (IAdd tok_alice dog id2); OReply 1 (Ok IRUnit);
     OCall (ISearch tok_alice dog); OCall (IDelete tok_alice dog id1); OReply 3 (Ok IRUnit); OReply 2 (Ok (IRIds [id1]))] pool w1) /\
  forall ds m', ~ ix_linearizes index_empty
    [OCall (IAdd tok_alice dog id1); OReply 0 (Ok IRUnit); OCall (IAdd tok_alice dog id2); OReply 1 (Ok IRUnit);
     OCall (ISearch tok_alice dog); OCall (IDelete tok_alice dog id1); OReply 3 (Ok IRUnit); OReply 2 (Ok (IRIds [id1]))] ds m'.
Proof. exact (conj miss_run miss_not_linear). Qed.
Print Assumptions C63_search_during_delete_refuted.
