(** C74: calls of all three kinds, made from any number of goroutines of a D1 and a SecureIndex whose
    identity provider is a Standalone, act one after the other.  Only property theorems here; the
    definitions are in LibConcSpec.v and the proof in LibConcMerge.v. *)
From stdpp Require Import gmap.
From Verif Require Import Bytes Go Uuid Time Types World Io IoSpec IoProofs Id Data D1 Spec D1ConcSpec D1Conc Standalone StandaloneSpec SaConcSpec
  Index IndexSpec IndexConcSpec IndexOwnSpec Lib LibSpec LibHist LibConcSpec LibTouch LibConcMerge Demo StandaloneDemo SaConcDemo IndexDemo LibDemo LibHistDemo LibConcDemo.
Local Open Scope N_scope.

Section C74.
  Context {S I : Type} (e : env) (v : view S) (io : provider S) (L : lib) (ks : res keys) (fuel : nat) (w w' : world S I) (tr : list lib_obs) (pool' : list (prog (world S I) lib_reply)).
  Context (storage : cell_storage v io) (entries : entrywise v io) (clock_wf : forall n, time_wf (clock e n)) (index_key : ix_new ks = Ok (l_iek L)).
  (** The library starts empty; calls are made at any time and their steps interleave in any way. *)
  Context (empty : lib_vacant v w) (calls : lib_conc e v io L fuel [] w tr pool' w').
  Context (wf : lib_wf tr) (in_order : lib_orderly tr) (ids : ids_differ e (w_draws w) (w_draws w')) (guess : lib_no_guess e (w_draws w) (w_draws w') tr) (forgery : unforged (l_sa L) (id_part tr)).
  Context (few : N.of_nat (count_adds (index_calls (lib_calls tr))) < 2 ^ 64) (enough : (count_adds (index_calls (lib_calls tr)) < fuel)%nat)
    (labels : labels_differ (l_iek L) (map ix_keyword (index_calls (lib_calls tr))) (N.of_nat (count_adds (index_calls (lib_calls tr))))).
  (** There is one order in which everything observed happens, in which each call looks up its token once
      and acts once, as that identity, and which respects which call was made after which answer. *)
  Theorem C74 : exists hs s, lib_acts e tr hs s.
  Proof. exact (library_overlaps e v io L ks fuel w w' tr pool' storage entries clock_wf index_key empty calls wf in_order ids guess forgery few enough labels). Qed.
End C74.
(** Both providers of the repository qualify. *)
Theorem C74_storage : (cell_storage mem_view Mem /\ entrywise mem_view Mem) /\ cell_storage bolt_view Bolt /\ entrywise bolt_view Bolt.
Proof. exact (conj (conj mem_cells mem_entrywise) (conj bolt_cells bolt_entrywise)). Qed.

(** A user encrypts an object and searches the index; the user is deleted after both calls had the token
    looked up and before they went on.  Both succeed. *)
Example C74_case : exists u p t oid pool' w', let tr := overlap_tr u p t oid in
  (cell_storage mem_view Mem /\ entrywise mem_view Mem /\ (forall n, time_wf (clock ov_env n)) /\ ix_new (Ok demo_ix_keys) = Ok (l_iek lib_demo)) /\
  lib_vacant mem_view demo_w /\ lib_conc ov_env mem_view Mem lib_demo 9 [] demo_w tr pool' w' /\ lib_wf tr /\ lib_orderly tr /\
  ids_differ ov_env (w_draws demo_w) (w_draws w') /\ lib_no_guess ov_env (w_draws demo_w) (w_draws w') tr /\ unforged (l_sa lib_demo) (id_part tr) /\
  N.of_nat (count_adds (index_calls (lib_calls tr))) < 2 ^ 64 /\ (count_adds (index_calls (lib_calls tr)) < 9)%nat /\
  labels_differ (l_iek lib_demo) (map ix_keyword (index_calls (lib_calls tr))) (N.of_nat (count_adds (index_calls (lib_calls tr)))).
Proof.
  destruct overlap_case as (u & p & t & oid & pool' & w' & H). exists u, p, t, oid, pool', w'.
  exact (conj (conj mem_cells (conj mem_entrywise (conj ov_clock eq_refl))) H).
Qed.

Print Assumptions C74.
Print Assumptions C74_storage.
Print Assumptions C74_case.
