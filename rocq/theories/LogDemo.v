(** Two calls that log to one logger, and two that do not. *)
From stdpp Require Import gmap.
From Verif Require Import Bytes Go Json Uuid World Types Id D1 Slices Threads Lib LibSpec LibHist Log LogSpec.

(** A schedule. *)
Fixpoint turns {W A} (ts : list nat) (pool : list (prog W A)) (w : W) : list (prog W A) * W :=
  match ts with
  | [] => (pool, w)
  | t :: ts => match pool !! t with
               | Some (Step f k) => turns ts (<[t := k (fst (f w))]> pool) (snd (f w))
               | _ => (pool, w)
               end
  end.
Lemma turns_steps {W A} ts : forall (pool : list (prog W A)) w, steps pool w (fst (turns ts pool w)) (snd (turns ts pool w)).
Proof.
  induction ts as [|t ts IH]; intros pool w; cbn [turns]; [constructor|]. destruct (pool !! t) as [[a|X f k]|] eqn:E; [constructor| |constructor].
  eapply s_step; [exact E|]. apply IH.
Qed.

(** A string in quotes. *)
Definition quoted (s : bytes) : bytes := [x22] ++ s ++ [x22].
Definition first_oid : uuid := repeat x01 16.
Definition second_oid : uuid := repeat x02 16.
(** The logger zerolog.New(w).With().Logger(): an opening brace in an array of 500 bytes. *)
Definition demo_array : list byte := x7b :: repeat x00 499.
Definition demo_logger (a : nat) : logger := mkLogger (mkSlice a 0 1 500) true.
(** Two Decrypts, one logger; and two Decrypts with a logger each. *)
Definition sharing (tok0 tok1 : bytes) : list (option logger * lib_call) :=
  [ (Some (demo_logger 0), OnObject (CDecrypt tok0 first_oid)); (Some (demo_logger 0), OnObject (CDecrypt tok1 second_oid)) ].
Definition apart (tok0 tok1 : bytes) : list (option logger * lib_call) :=
  [ (Some (demo_logger 0), OnObject (CDecrypt tok0 first_oid)); (Some (demo_logger 1), OnObject (CDecrypt tok1 second_oid)) ].
Definition one_array : logs := mkLogs [demo_array] [].
Definition two_arrays : logs := mkLogs [demo_array; demo_array] [].
(** A context about an object being decrypted. *)
Definition about (oid : uuid) : bytes :=
  add_field quoted (add_field quoted [x7b] (str "method", str "decrypt")) (str "oid", uuid_text oid).

Section Demo.
  Context {S I : Type} (room : nat -> list byte) (e : env) (io : provider S) (L : lib) (fuel : nat) (tok0 tok1 : bytes) (w : world S I).
  Lemma mixed : exists pool' g', steps (pool_l quoted room e io L fuel (sharing tok0 tok1)) (one_array, w) pool' (g', w) /\
    g_lines g' = [mkLine 0 (about second_oid) MAuthenticatingCaller DNone].
  Proof.
    pose proof (turns_steps [0; 0; 1; 1; 0] (pool_l quoted room e io L fuel (sharing tok0 tok1)) (one_array, w)) as St.
    destruct (turns _ _ _) as [pool' [g' w']] eqn:E. assert (Ew : w' = w) by (change w' with (snd (snd (pool', (g', w')))); rewrite <- E; reflexivity).
    rewrite Ew in St. exists pool', g'. split; [exact St|]. change g' with (fst (snd (pool', (g', w')))). rewrite <- E. clear. vm_compute. reflexivity.
  Qed.
  Lemma not_mixed : exists pool' g', steps (pool_l quoted room e io L fuel (apart tok0 tok1)) (two_arrays, w) pool' (g', w) /\
    g_lines g' = [mkLine 1 (about second_oid) MAuthenticatingCaller DNone; mkLine 0 (about first_oid) MAuthenticatingCaller DNone].
  Proof.
    pose proof (turns_steps [0; 0; 1; 1; 0; 1] (pool_l quoted room e io L fuel (apart tok0 tok1)) (two_arrays, w)) as St.
    destruct (turns _ _ _) as [pool' [g' w']] eqn:E. assert (Ew : w' = w) by (change w' with (snd (snd (pool', (g', w')))); rewrite <- E; reflexivity).
    rewrite Ew in St. exists pool', g'. split; [exact St|]. change g' with (fst (snd (pool', (g', w')))). rewrite <- E. clear. vm_compute. reflexivity.
  Qed.
End Demo.
Lemma sharing_ok tok0 tok1 : loggers_ok (g_heap one_array) (sharing tok0 tok1) /\ same_or_apart (sharing tok0 tok1).
Proof.
  assert (H : forall t lg c, sharing tok0 tok1 !! t = Some (Some lg, c) -> lg = demo_logger 0).
  { intros [|[|t]] lg c Hc; [injection Hc as <- _; reflexivity..|discriminate Hc]. }
  split.
  - intros t lg c Hc. rewrite (H _ _ _ Hc). cbn. split; [split; cbn; lia|lia].
  - intros t lg c t' lg' c' Hc Hc' _. now rewrite (H _ _ _ Hc), (H _ _ _ Hc').
Qed.
Lemma apart_ok tok0 tok1 : loggers_ok (g_heap two_arrays) (apart tok0 tok1) /\ (forall t, unshared (apart tok0 tok1) t) /\ same_or_apart (apart tok0 tok1).
Proof.
  assert (H : forall t lg c, apart tok0 tok1 !! t = Some (Some lg, c) -> t < 2 /\ lg = demo_logger t).
  { intros [|[|t]] lg c Hc; [injection Hc as <- _; split; [lia|reflexivity]..|discriminate Hc]. }
  split; [|split].
  - intros t lg c Hc. destruct (H _ _ _ Hc) as [Ht ->]. destruct t as [|[|t]]; [..|lia]; (split; [split; cbn; lia|cbn; lia]).
  - intros t lg c Hc. right. intros t' lg' c' Ne Hc'. destruct (H _ _ _ Hc) as [_ ->], (H _ _ _ Hc') as [_ ->]. cbn. exact Ne.
  - intros t lg c t' lg' c' Hc Hc' Ea. destruct (H _ _ _ Hc) as [_ ->], (H _ _ _ Hc') as [_ ->]. cbn in Ea |- *. now rewrite Ea.
Qed.
