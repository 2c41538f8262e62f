(** Specification of the secure index, independent of how index.go stores it: every keyword has a
    list of identifiers.  They are kept as text: for UTF-8 strings, [as_text y = y]. *)
From stdpp Require Import gmap.
From Verif Require Import Bytes Go Types Id Data Spec Index.
Local Open Scope N_scope.

Definition index := bytes -> list bytes.
Definition index_empty : index := fun _ => [].
(** Same lists. *)
Definition same (m m' : index) : Prop := forall kw, m' kw = m kw.
(** Only the list of [kw] changes, and becomes [l]. *)
Definition becomes (kw : bytes) (l : list bytes) (m m' : index) : Prop :=
  m' kw = l /\ forall kw', kw' <> kw -> m' kw' = m kw'.
(** The list without any [x]. *)
Definition without (x : bytes) (l : list bytes) : list bytes := List.filter (fun y => negb (bytes_eqb y x)) l.
(** [thinned x l l']: [l'] is [l] with some occurrences of [x] missing. *)
Inductive thinned (x : bytes) : list bytes -> list bytes -> Prop :=
| th_nil : thinned x [] []
| th_keep y l l' : thinned x l l' -> thinned x (y :: l) (y :: l')
| th_drop l l' : thinned x l l' -> thinned x (x :: l) l'.

(** What the environment contributes to a call: the identity the token resolves to, and whether the
    random source failed during the call. *)
Record ix_outside := mkIxOutside { ix_who : res identity; ix_rng_fails : Prop }.

Definition ix_token (c : ix_call) : bytes := match c with IAdd t _ _ | ISearch t _ | IDelete t _ _ => t end.
Definition ix_keyword (c : ix_call) : bytes := match c with IAdd _ kw _ | ISearch _ kw | IDelete _ kw _ => kw end.

(** Who may call. *)
Definition ix_allowed (who : res identity) (m : index) (r : res ix_reply) (m' : index) (body : Prop) : Prop :=
  match who with
  | Ok i => (~ scope_has (i_scopes i) ScopeIndex /\ r = Err EIxNotAuthorized /\ same m m') \/ (scope_has (i_scopes i) ScopeIndex /\ body)
  | Err _ => r = Err EIxNotAuthenticated /\ same m m'
  | Panic => r = Panic /\ same m m'
  end.

(** One call. *)
Definition ix_step (x : ix_outside) (c : ix_call) (m : index) (r : res ix_reply) (m' : index) : Prop :=
  ix_allowed (ix_who x) m r m'
    match c with
    | IAdd _ kw y =>
        (ix_rng_fails x /\ r = Err ERandom /\ same m m') \/
        (r = Ok IRUnit /\ becomes kw (m kw ++ [as_text y]) m m')
    | ISearch _ kw => r = Ok (IRIds (m kw)) /\ same m m'
    | IDelete _ kw y =>
        (ix_rng_fails x /\ r = Err ERandom /\ exists l, thinned y (m kw) l /\ becomes kw l m m') \/
        (r = Ok IRUnit /\ becomes kw (without y (m kw)) m m')
    end.

Record ix_event := mkIxEvent { iv_x : ix_outside; iv_call : ix_call; iv_reply : res ix_reply }.
Inductive ix_history : index -> list ix_event -> index -> Prop :=
| ih_nil m m' : same m m' -> ix_history m [] m'
| ih_cons m ev m1 evs m2 : ix_step (iv_x ev) (iv_call ev) m (iv_reply ev) m1 -> ix_history m1 evs m2 -> ix_history m (ev :: evs) m2.

(** The identifiers some calls were asked to add under a keyword, as they are stored, and how many additions there are. *)
Definition adds_of (kw : bytes) (cs : list ix_call) : list bytes :=
  flat_map (fun c => match c with IAdd _ kw' y => if bytes_eqb kw' kw then [as_text y] else [] | _ => [] end) cs.
Definition count_adds (cs : list ix_call) : nat :=
  length (List.filter (fun c => match c with IAdd _ _ _ => true | _ => false end) cs).

(** ** Labels.  The index stores the node number [c] of keyword [kw] under this id. *)
Definition ix_label (iek kw : bytes) (c : N) : res bytes :=
  res_bind (ix_keys iek kw) (fun ks => next_label (fst ks) (mkNode [] c)).
(** No two (keyword, number) pairs have the same label, for these keywords and numbers up to [n]. *)
Definition labels_differ (iek : bytes) (kws : list bytes) (n : N) : Prop :=
  forall kw kw' c c', In kw kws -> In kw' kws -> c <= n -> c' <= n ->
    ix_label iek kw c = ix_label iek kw' c' -> kw = kw' /\ c = c'.

(** ** What Search should return, from the replies seen so far *)
Definition ix_effect (kw : bytes) (l : list bytes) (ev : ix_event) : list bytes :=
  match iv_call ev, iv_reply ev with
  | IAdd _ kw' y, Ok _ => if bytes_eqb kw' kw then l ++ [as_text y] else l
  | IDelete _ kw' y, Ok _ => if bytes_eqb kw' kw then without y l else l
  | _, _ => l
  end.
Definition ix_listing (kw : bytes) (evs : list ix_event) : list bytes := fold_left (ix_effect kw) evs [].
(** A Delete for the keyword that the random source made fail half way. *)
Definition botched (kw : bytes) (ev : ix_event) : Prop :=
  exists t y, iv_call ev = IDelete t kw y /\ iv_reply ev = Err ERandom.

(** ** Calls that may be cut short, or fail because the storage does *)
Inductive ix_happening := XDone (ev : ix_event) | XCut (c : ix_call).
Definition hap_call (h : ix_happening) : ix_call := match h with XDone ev => iv_call ev | XCut c => c end.
(** A Delete for the keyword that died or that the storage failed. *)
Definition spoils (kw : bytes) (h : ix_happening) : Prop :=
  match h with
  | XCut (IDelete _ kw' _) => kw' = kw
  | XDone ev => match iv_call ev, iv_reply ev with IDelete _ kw' _, Err (EIoOther _) => kw' = kw | _, _ => False end
  | _ => False
  end.
(** An addition.  After such a Delete, identifiers added before may come back with it. *)
Definition ix_xadd (pre : list ix_happening) (kw y : bytes) (m m' : index) : Prop :=
  exists stale, becomes kw (m kw ++ as_text y :: stale) m m' /\
    (forall z, In z stale -> In z (adds_of kw (map hap_call pre))) /\ (stale <> [] -> Exists (spoils kw) pre).
(** One step, after [pre]. *)
Definition ix_xstep (pre : list ix_happening) (h : ix_happening) (m m' : index) : Prop :=
  match h with
  | XDone ev =>
      match iv_call ev, iv_reply ev with
      | IAdd _ kw y, Ok _ => ix_xadd pre kw y m m'
      | IAdd _ kw y, _ => same m m' \/ ix_xadd pre kw y m m'
      | ISearch _ kw, Ok rep => rep = IRIds (m kw) /\ same m m'
      | ISearch _ _, _ => same m m'
      | IDelete _ kw y, Ok _ => becomes kw (without y (m kw)) m m'
      | IDelete _ kw y, _ => exists l, thinned y (m kw) l /\ becomes kw l m m'
      end
  | XCut c =>
      match c with
      | IAdd _ kw y => same m m' \/ ix_xadd pre kw y m m'
      | ISearch _ _ => same m m'
      | IDelete _ kw y => exists l, thinned y (m kw) l /\ becomes kw l m m'
      end
  end.
Inductive ix_xhistory : list ix_happening -> index -> list ix_happening -> index -> Prop :=
| xh_nil pre m m' : same m m' -> ix_xhistory pre m [] m'
| xh_cons pre m h m1 hs m2 : ix_xstep pre h m m1 -> ix_xhistory (pre ++ [h]) m1 hs m2 -> ix_xhistory pre m (h :: hs) m2.
