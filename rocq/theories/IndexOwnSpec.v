(** Index calls of all three kinds that run at the same time: which of them may overlap, and what is
    asked of them.  How they run is [ix_conc] of IndexConcSpec. *)
From stdpp Require Import gmap.
From Verif Require Import Bytes Go Types World IoSpec Id Data D1 Spec Index IndexSpec IndexConcSpec.
Local Open Scope N_scope.

(** ** Which calls must not overlap *)
Definition is_search (c : ix_call) : Prop := match c with ISearch _ _ => True | _ => False end.
(** Two calls are at odds if they are for the same keyword and not both are Searches. *)
Definition ix_odds (c c' : ix_call) : Prop := ix_keyword c = ix_keyword c' /\ ~ (is_search c /\ is_search c').
(** When a call is made, the earlier calls it is at odds with have been answered. *)
Definition ix_orderly (tr : list ix_obs) : Prop :=
  forall tr1 c tr2, tr = tr1 ++ OCall c :: tr2 ->
  forall t c', nth_error (obs_calls tr1) t = Some c' -> ix_odds c' c -> exists r, In (OReply t r) tr1.

(** ** One order for calls that overlap *)
Record ix_act := mkIxAct { ia_call : nat; ia_event : ix_event }.
(** What the environment contributes to a call is what it may contribute: the identity is an answer of
    the identity provider to the token, and the random source fails only if some draw fails. *)
Definition ix_outside_ok (e : env) (who : bytes -> res identity -> Prop) (c : ix_call) (x : ix_outside) : Prop :=
  who (ix_token c) (ix_who x) /\ (ix_rng_fails x -> exists i n, draw e i n = Err ERandom).
(** The calls observed act like the events of [ds], one after the other in this order: each acts at most
    once; replies are as in [ds]; and a call made after another was answered comes later: whatever was
    answered in a first part [tr1] of the observations acts before whatever was not yet called then. *)
Definition ix_in_turn (e : env) (who : bytes -> res identity -> Prop) (m : index) (tr : list ix_obs) (ds : list ix_act) (m' : index) : Prop :=
  ix_history m (map ia_event ds) m' /\ NoDup (map ia_call ds) /\
  (forall d, In d ds -> nth_error (obs_calls tr) (ia_call d) = Some (iv_call (ia_event d)) /\
     ix_outside_ok e who (iv_call (ia_event d)) (iv_x (ia_event d))) /\
  (forall t r, In (OReply t r) tr -> exists d, In d ds /\ ia_call d = t /\ iv_reply (ia_event d) = r) /\
  (forall tr1 tr2, tr = tr1 ++ tr2 -> exists ds1 ds2, ds = ds1 ++ ds2 /\
     (forall t r, In (OReply t r) tr1 -> In t (map ia_call ds1)) /\
     (forall t, In t (map ia_call ds1) -> (t < length (obs_calls tr1))%nat)).

Section Run.
  Context {S I : Type} (v : view S).
  Notation W := (world S I).
  (** A program none of whose steps touches a stored node, and what it may return. *)
  Fixpoint ix_answers {B} (p : prog W B) (Q : B -> Prop) : Prop :=
    match p with
    | Ret b => Q b
    | Step f k => forall w, v_inv v (w_io w) -> ix_around v w (snd (f w)) /\ ix_answers (k (fst (f w))) Q
    end.
End Run.
