(** Concrete memory: the hypotheses of P_Slices.v can be met, and what happens where they are not. *)
From stdpp Require Import gmap.
From Verif Require Import Bytes Go Uuid Types World Io IoHist Aes Gcm Kwp Cryptor Id D1 D1Proofs Sched D1Sched Slices SlicesSpec SlicesProofs SlicesAead Demo.
Local Open Scope bool_scope.
Local Ltac splits := repeat match goal with |- _ /\ _ => split end.

Section Play.
  Context {E S I A : Type}.
  Notation HW := (list (list E) * world S I)%type.
  (** A given schedule. *)
  Fixpoint play_s (sched : list nat) (pool : list (prog HW A)) (w : HW) : list (prog HW A) * HW :=
    match sched with
    | [] => (pool, w)
    | t :: sched =>
        match pool !! t with
        | Some (Step f k) => let '(x, w1) := f w in play_s sched (<[t := k x]> pool) w1
        | _ => play_s sched pool w
        end
    end.
  Lemma exec_play_s (K : bytes -> Prop) sched : forall pool (w : HW),
    exec_s K pool w (fst (play_s sched pool w)) (snd (play_s sched pool w)).
  Proof.
    induction sched as [|t sched IH]; intros pool w; cbn [play_s]; [constructor|].
    destruct (pool !! t) as [[a|X f k]|] eqn:Et; try apply IH.
    destruct (f w) as [x w1] eqn:Ef. eapply xs_step; [exact Et|]. rewrite Ef. cbn [fst snd]. apply IH.
  Qed.
End Play.

Definition no_room : nat -> list bytes := fun _ => [].
Notation demo_s c := (d1_aes_s demo_env Mem demo_idp demo_d1 no_room c).
Definition ops : bytes := str "ops".
(** var buf = []string{"ops", "kept"}; buf[:1] *)
Definition demo_heap : list (list bytes) := [[ops; str "kept"]].
Definition demo_slice : slice := mkSlice 0 0 1 2.


Lemma demo_slice_ok : sl_ok demo_heap demo_slice.
Proof. split; cbn; lia. Qed.

(** After Encrypt(obj, buf[:1]...), buf[1] is the caller's id. *)
Lemma demo_overwritten : exists oid h' w',
  run (demo_s (SEncrypt tok_alice demo_obj demo_slice)) (demo_heap, demo_w) = (Ok (ROid oid), (h', w')) /\
  cells demo_heap 0 !! 1 = Some (str "kept") /\ cells h' 0 !! 1 = Some (i_id alice).
Proof.
  assert (H : match run (demo_s (SEncrypt tok_alice demo_obj demo_slice)) (demo_heap, demo_w) with
              | (Ok (ROid oid), (h', w')) => match cells h' 0 !! 1 with Some x => bytes_eqb x (i_id alice) | None => false end
              | _ => false end = true) by (vm_cast_no_check (eq_refl true)).
  destruct (run (demo_s _) _) as [[[oid| | | | |]| |] [h' w']]; try discriminate H.
  exists oid, h', w'. split; [reflexivity|]. split; [reflexivity|].
  destruct (cells h' 0 !! 1) as [x|]; [|discriminate H]. apply bytes_eqb_eq in H. now rewrite H.
Qed.

(** Two calls share buf[:1]: the second caller gets onto the first one's list, and the first does not. *)
Notation demo_two := [demo_s (SEncrypt tok_alice demo_obj demo_slice); demo_s (SEncrypt tok_bob demo_obj2 demo_slice)].
Lemma demo_shared : exists oid oid2 h2 w2,
  exec_s (fun _ => False) demo_two (demo_heap, demo_w) [Ret (Ok (ROid oid)); Ret (Ok (ROid oid2))] (h2, w2) /\
  fst (demo_run (CDecrypt tok_alice oid) w2) = Err ED1NotAuthorized /\
  fst (demo_run (CDecrypt tok_bob oid) w2) = Ok (RObject demo_obj).
Proof.
  pose (sched := repeat 0 5 ++ repeat 1 5 ++ repeat 0 30 ++ repeat 1 30).
  assert (H : match play_s sched demo_two (demo_heap, demo_w) with
              | ([Ret (Ok (ROid oid)); Ret (Ok (ROid oid2))], (h2, w2)) =>
                  match fst (demo_run (CDecrypt tok_alice oid) w2) with Err ED1NotAuthorized => true | _ => false end &&
                  match fst (demo_run (CDecrypt tok_bob oid) w2) with Ok (RObject (mkObject (Some p) None)) => bytes_eqb p (str "secret") | _ => false end
              | _ => false end = true) by (vm_cast_no_check (eq_refl true)).
  clearbody sched. pose proof (exec_play_s (fun _ : bytes => False) sched demo_two (demo_heap, demo_w)) as Hx.
  destruct (play_s sched demo_two _) as [pool' [h2 w2]]. cbn [fst snd] in Hx.
  destruct pool' as [|[[[oid| | | | |]| |]|] [|[[[oid2| | | | |]| |]|] [|]]]; try discriminate H.
  exists oid, oid2, h2, w2. split; [exact Hx|]. clear Hx. apply Bool.andb_true_iff in H as [H1 H2].
  destruct (fst (demo_run (CDecrypt tok_alice oid) w2)) as [y|x|]; [discriminate H1| |discriminate H1].
  destruct (fst (demo_run (CDecrypt tok_bob oid) w2)) as [y|z|]; [|discriminate H2..].
  split; [destruct x; first [reflexivity|discriminate H1]|].
  destruct y as [|[[p|] [a|]]| | | |]; try discriminate H2. apply bytes_eqb_eq in H2. now rewrite H2.
Qed.

(** ** Storage *)
Lemma run_parts {W1 W2 A} (p : prog (W1 * W2) A) x : run p x = (fst (run p x), (fst (snd (run p x)), snd (snd (run p x)))).
Proof. now destruct (run p x) as [? [? ?]]. Qed.
Definition id1 : bytes := str "0123456789abcdef".
(** An id and a datum of one byte in arrays of their own, without room. *)
Definition mem_heap : list (list byte) := [id1; [x01]].
Definition mem_id : slice := mkSlice 0 0 16 16.
Definition mem_data : slice := mkSlice 1 0 1 1.
Lemma mem_ok : op_ok mem_heap (SPut mem_id 0 mem_data).
Proof. repeat constructor; cbn; lia. Qed.
Lemma mem_aliases : exists tr x,
  client mem_do_s op_ok anywhere [] (mem_heap, ∅) tr x /\
  tr = [(OPut id1 0 [x01], RDone (Ok tt)); (OGet id1 0, RData (Ok [x02]))].
Proof.
  eexists _, _. split.
  - eapply (c_call _ _ _ _ (SPut mem_id 0 mem_data) mem_heap); [apply mem_ok|apply run_parts|].
    eapply (c_write _ _ _ _ _ _ (sl_write mem_heap mem_data 0 [x02])); [exact Logic.I|].
    eapply (c_call _ _ _ _ (SGet mem_id 0) (sl_write mem_heap mem_data 0 [x02])); [split; [split; cbn; lia|constructor]|apply run_parts|].
    apply c_end.
  - vm_compute. reflexivity.
Qed.
(** The buffer Get returned is the stored one. *)
Lemma mem_returns : exists out m,
  run (mem_do_s (SPut mem_id 0 mem_data)) (mem_heap, ∅) = (SDone (Ok tt), (mem_heap, m)) /\
  run (mem_do_s (SGet mem_id 0)) (mem_heap, m) = (SData (Ok out), (mem_heap, m)) /\ contents mem_heap out = [x01] /\
  let h := sl_write mem_heap out 0 [x02] in
  reply_on h (fst (run (mem_do_s (SGet mem_id 0)) (h, m))) = RData (Ok [x02]).
Proof.
  eexists mem_data, _. split; [reflexivity|]. split; [reflexivity|]. split; reflexivity.
Qed.

(** The id is buf[:16]; the datum is buf[16:]. *)
Definition bolt_heap : list (list byte) := [id1 ++ str "secret"].
Definition bolt_id : slice := mkSlice 0 0 16 22.
Definition bolt_data : slice := mkSlice 0 16 6 6.
Lemma bolt_ok : op_ok bolt_heap (SPut bolt_id 1 bolt_data).
Proof. repeat constructor; cbn; lia. Qed.
Lemma bolt_overwrites : exists r h' b',
  run (bolt_do_s (fun _ => []) (SGet bolt_id 1)) (bolt_heap, ∅) = (r, (h', b')) /\
  contents bolt_heap bolt_data = str "secret" /\ contents h' bolt_data = [x01; x00; x00] ++ str "ret".
Proof. eexists _, _, _. split; [apply run_parts|]. split; vm_compute; reflexivity. Qed.
Lemma bolt_corrupts : exists tr x,
  client (bolt_do_s (fun _ => [])) op_ok not_into_kept [] (bolt_heap, ∅) tr x /\
  tr = [(OPut id1 1 (str "secret"), RDone (Ok tt)); (OGet id1 1, RData (Ok ([x01; x00; x00] ++ str "ret")))].
Proof.
  eexists _, _. split.
  - eapply (c_call _ _ _ _ (SPut bolt_id 1 bolt_data) bolt_heap); [apply bolt_ok|apply run_parts|].
    eapply (c_call _ _ _ _ (SGet bolt_id 1)); [split; [split; vm_compute; lia|constructor]|apply run_parts|].
    apply c_end.
  - vm_compute. reflexivity.
Qed.

(** Two calls at once with the same buf[:16] as id and data elsewhere. *)
Definition bolt_heap2 : list (list byte) := [id1 ++ repeat x00 3; str "object"].
Definition bolt_id2 : slice := mkSlice 0 0 16 19.
Definition bolt_data2 : slice := mkSlice 1 0 6 6.
Lemma bolt_confuses : exists h' b' r,
  interleaved [bolt_do_s (fun _ => []) (SPut bolt_id2 0 bolt_data2); bolt_do_s (fun _ => []) (SGet bolt_id2 1)] (bolt_heap2, ∅)
              [Ret (SDone (Ok tt)); Ret r] (h', b') /\
  (let '(q, (h1, _)) := run (bolt_do_s (fun _ => []) (SGet bolt_id2 0)) (h', b') in reply_on h1 q) = RData (Err EIoNotFound) /\
  (let '(q, (h1, _)) := run (bolt_do_s (fun _ => []) (SGet bolt_id2 1)) (h', b') in reply_on h1 q) = RData (Ok (str "object")).
Proof.
  eexists _, _, _. split.
  - eapply (il_step 0); [reflexivity|]. eapply (il_step 1); [reflexivity|]. eapply (il_step 0); [reflexivity|]. eapply (il_step 1); [reflexivity|].
    apply il_nil.
  - split; vm_compute; reflexivity.
Qed.

(** ** Encryption *)
Definition aes_heap : list (list byte) := [str "attack at dawn" ++ repeat x00 28; repeat x07 32; str "aad"].
Lemma aes_ok : sl_ok aes_heap (mkSlice 0 0 14 42) /\ sl_ok aes_heap (mkSlice 1 0 32 32) /\ sl_ok aes_heap (mkSlice 2 0 3 3).
Proof. splits; split; cbn; lia. Qed.
Lemma aes_clear a n : clear_of (mkSlice 0 0 14 42) (mkSlice (1 + a) 0 n n).
Proof. intros i _ (E & _). discriminate E. Qed.
