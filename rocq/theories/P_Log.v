(** C69: logging changes nothing.  C70: whose ids a log line carries. *)
From stdpp Require Import gmap.
From Verif Require Import Bytes Go World Types D1 Slices Threads Lib LibSpec LibHist Log LogSpec LogPool LogDemo.

(** C69: whatever the loggers in the callers' contexts, calls that log, in whatever interleaving, give the
    answers and leave the storage of the same calls without their lines, in some interleaving. *)
Theorem C69_transparent {S I} txt room e (io : provider S) L fuel calls g (w : world S I) pool' g' w' :
  steps (pool_l txt room e io L fuel calls) (g, w) pool' (g', w') ->
  exists plain', steps (pool_plain e io L fuel calls) w plain' w' /\
    forall t r, pool' !! t = Some (Ret r) -> plain' !! t = Some (Ret r).
Proof. exact (pool_transparent txt room e io L fuel calls g w pool' g' w'). Qed.
Print Assumptions C69_transparent.

(** C69: and whatever the calls could do without their lines, they can do with them. *)
Theorem C69_unhindered {S I} txt room e (io : provider S) L fuel calls (w : world S I) plain' w' :
  steps (pool_plain e io L fuel calls) w plain' w' ->
  forall g, exists pool' g', steps (pool_l txt room e io L fuel calls) (g, w) pool' (g', w') /\
    forall t r, plain' !! t = Some (Ret r) -> pool' !! t = Some (Ret r).
Proof. exact (pool_unhindered txt room e io L fuel calls w plain' w'). Qed.
Print Assumptions C69_unhindered.

(** C69: the contexts of the callers' own loggers are afterwards, and at every moment, what they were. *)
Theorem C69_context_kept {S I} txt room e (io : provider S) L fuel calls g (w : world S I) pool' g' w' :
  loggers_ok (g_heap g) calls -> same_or_apart calls ->
  steps (pool_l txt room e io L fuel calls) (g, w) pool' (g', w') ->
  forall t lg c, calls !! t = Some (Some lg, c) -> contents (g_heap g') (lg_ctx lg) = contents (g_heap g) (lg_ctx lg).
Proof. exact (pool_context_kept txt room e io L fuel calls g w pool' g' w'). Qed.
Print Assumptions C69_context_kept.

(** C70, of calls that are made at the same time, if no two loggers share an array that has room: every line
    is at debug level, and says nothing but its caller's context, the method, the object and the user of the
    call that wrote it, and the details of [own_detail]. *)
Theorem C70_own_lines_partial {S I} txt room e (io : provider S) L fuel calls g (w : world S I) pool' g' w' :
  loggers_ok (g_heap g) calls -> (forall t, unshared calls t) ->
  steps (pool_l txt room e io L fuel calls) (g, w) pool' (g', w') ->
  exists new, g_lines g' = new ++ g_lines g /\ forall l, In l new ->
    exists lg c, calls !! l_who l = Some (Some lg, c) /\ lg_debug lg = true /\
      own_line (I:=I) txt e io L c (contents (g_heap g) (lg_ctx lg)) l.
Proof. exact (pool_lines txt room e io L fuel calls (g_heap g) g w pool' g' w' eq_refl). Qed.
Print Assumptions C70_own_lines_partial.

(** C70, of calls that are made one after another: the same, whatever loggers they share. *)
Theorem C70_in_turn {S I} txt room e (io : provider S) L fuel pre o c post (x x1 : logs * world S I) r x2 :
  loggers_ok (g_heap (fst x)) (pre ++ (o, c) :: post) -> same_or_apart (pre ++ (o, c) :: post) ->
  in_turn txt room e io L fuel pre x x1 -> run (lib_do_l txt room 0 e io L fuel o c) x1 = (r, x2) ->
  exists new, g_lines (fst x2) = new ++ g_lines (fst x1) /\ forall l, In l new ->
    exists lg, o = Some lg /\ lg_debug lg = true /\ own_line (I:=I) txt e io L c (contents (g_heap (fst x)) (lg_ctx lg)) l.
Proof. exact (in_turn_lines txt room e io L fuel pre o c post x x1 r x2). Qed.
Print Assumptions C70_in_turn.

(** C70 is false of calls that are made at the same time with one logger, such as zerolog's With() makes:
    the first line of the call about the first object says that it is about the second. *)
Theorem C70_mixed_refuted {S I} room e (io : provider S) L fuel tok0 tok1 (w : world S I) :
  loggers_ok (g_heap one_array) (sharing tok0 tok1) /\ same_or_apart (sharing tok0 tok1) /\
  sharing tok0 tok1 !! 0 = Some (Some (demo_logger 0), OnObject (CDecrypt tok0 first_oid)) /\ first_oid <> second_oid /\
  exists pool' g', steps (pool_l quoted room e io L fuel (sharing tok0 tok1)) (one_array, w) pool' (g', w) /\
    g_lines g' = [mkLine 0 (about second_oid) MAuthenticatingCaller DNone].
Proof.
  split; [apply sharing_ok|]. split; [apply sharing_ok|]. split; [reflexivity|]. split; [discriminate|].
  exact (mixed room e io L fuel tok0 tok1 w).
Qed.
Print Assumptions C70_mixed_refuted.

(** Two overlapping calls with a logger each meet the hypotheses of C69 and C70, and do write lines. *)
Example C70_case {S I} room e (io : provider S) L fuel tok0 tok1 (w : world S I) :
  loggers_ok (g_heap two_arrays) (apart tok0 tok1) /\ (forall t, unshared (apart tok0 tok1) t) /\ same_or_apart (apart tok0 tok1) /\
  exists pool' g', steps (pool_l quoted room e io L fuel (apart tok0 tok1)) (two_arrays, w) pool' (g', w) /\
    g_lines g' = [mkLine 1 (about second_oid) MAuthenticatingCaller DNone; mkLine 0 (about first_oid) MAuthenticatingCaller DNone].
Proof. destruct (apart_ok tok0 tok1) as (H1 & H2 & H3). split; [exact H1|]. split; [exact H2|]. split; [exact H3|]. exact (not_mixed room e io L fuel tok0 tok1 w). Qed.
