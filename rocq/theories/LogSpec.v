(** What a log line may say.  See P_Log.v. *)
From stdpp Require Import gmap.
From Verif Require Import Bytes Go Uuid World Types Id D1 Spec Index Standalone Slices Lib LibSpec LibHist Log.
Local Open Scope N_scope.

(** The answers a program can give, whatever others do between its steps. *)
Inductive may {W A} : prog W A -> A -> Prop :=
| may_ret a : may (Ret a) a
| may_step X (f : W -> X * W) k w a : may (k (fst (f w))) a -> may (Step f k) a.

(** The name of the method called. *)
Definition method_of (c : lib_call) : bytes :=
  match c with
  | OnObject (CEncrypt _ _ _) => str "encrypt"
  | OnObject (CUpdate _ _ _) => str "update"
  | OnObject (CDecrypt _ _) => str "decrypt"
  | OnObject (CDelete _ _) => str "delete"
  | OnObject (CGetAccessGroups _ _) => str "get access groups"
  | OnObject (CAddGroups _ _ _) => str "add groups to access"
  | OnObject (CRemoveGroups _ _ _) => str "remove groups from access"
  | OnObject (CAuthorize _ _) => str "authorize identity"
  | OnObject (CCreateToken _) => str "create token"
  | OnObject (CGetTokenContents _) => str "get token contents"
  | OnIndex (IAdd _ _ _) => str "add"
  | OnIndex (ISearch _ _) => str "search"
  | OnIndex (IDelete _ _ _) => str "delete"
  | OnIdentity (SNewUser _) => str "new user"
  | OnIdentity (SLogin _ _) => str "login user"
  | OnIdentity (SChangePassword _ _) => str "change password"
  | OnIdentity (SAddUser _ _ _) => str "add user to group"
  | OnIdentity (SRemoveUser _ _ _) => str "remove user from group"
  | OnIdentity (SDeleteUser _ _) => str "delete user"
  | OnIdentity (SNewGroup _ _) => str "new group"
  | OnIdentity (SGetIdentity _) => str "get identity"
  end.
(** The scope it takes. *)
Definition scope_needed (c : lib_call) : option N :=
  match c with
  | OnObject (CEncrypt _ _ _) => Some ScopeEncrypt
  | OnObject (CUpdate _ _ _) => Some ScopeUpdate
  | OnObject (CDecrypt _ _) => Some ScopeDecrypt
  | OnObject (CDelete _ _) => Some ScopeDelete
  | OnObject (CGetAccessGroups _ _) | OnObject (CAuthorize _ _) => Some ScopeGetAccessGroups
  | OnObject (CAddGroups _ _ _) | OnObject (CRemoveGroups _ _ _) => Some ScopeModifyAccessGroups
  | OnIndex _ => Some ScopeIndex
  | _ => None
  end.
(** The groups it names. *)
Definition groups_named (c : lib_call) : option (list bytes) :=
  match c with
  | OnObject (CEncrypt _ _ gs) | OnObject (CAddGroups _ _ gs) | OnObject (CRemoveGroups _ _ gs) => Some gs
  | _ => None
  end.

Section Lines.
  Context {S I : Type} (txt : bytes -> bytes) (e : env) (io : provider S) (L : lib).
  Notation idp := (sa_idp e io (l_sa L) : bytes -> prog (world S I) (res identity)).

  (** The fields of a call: its method, the object it is about, the id of its caller. *)
  Inductive own_field (c : lib_call) : bytes * bytes -> Prop :=
  | of_method : own_field c (str "method", method_of c)
  | of_lookup tok : lib_token c = Some tok -> own_field c (str "method", str "get identity")
  | of_object d oid : c = OnObject d -> call_oid d = Some oid -> own_field c (str "oid", uuid_text oid)
  | of_new_object tok obj gs oid : c = OnObject (CEncrypt tok obj gs) ->
      may (new_v4 e : prog (world S I) (res uuid)) (Ok oid) -> own_field c (str "oid", uuid_text oid)
  | of_caller tok i : lib_token c = Some tok -> may (idp tok) (Ok i) -> own_field c (str "uid", i_id i).
  (** What else its lines may show. *)
  Inductive own_detail (c : lib_call) : detail -> Prop :=
  | od_none : own_detail c DNone
  | od_groups gs : groups_named c = Some gs -> own_detail c (DGroups gs)
  | od_error tok x : lib_token c = Some tok -> may (idp tok) (Err x) -> own_detail c (DErr x)
  | od_scope s : scope_needed c = Some s -> own_detail c (DScope s)
  | od_created pt t : c = OnObject (CCreateToken pt) -> own_detail c (DExpiry t)
  | od_read t : c = OnObject (CGetTokenContents t) -> own_detail c (DExpiry (st_exp t))
  | od_count n : (exists s, c = OnIdentity s) \/ lib_token c <> None -> own_detail c (DCount n).
  (** A line of a call whose caller's logger had the context [base]. *)
  Definition own_line (c : lib_call) (base : bytes) (l : line) : Prop :=
    (exists fs, Forall (own_field c) fs /\ l_ctx l = fold_left (add_field txt) ((str "method", method_of c) :: fs) base) /\
    own_detail c (l_detail l).
End Lines.

(** A caller: the logger in their context, and their call. *)
Notation logged_call := (option logger * lib_call)%type.
(** The loggers lie in memory. *)
Definition loggers_ok (h : heap byte) (calls : list logged_call) : Prop :=
  forall t lg c, calls !! t = Some (Some lg, c) -> sl_ok h (lg_ctx lg) /\ (sl_arr (lg_ctx lg) < length h)%nat.
(** The context of the t-th caller's logger has no room behind it, or nobody else's lies in the same array. *)
Definition unshared (calls : list logged_call) (t : nat) : Prop :=
  forall lg c, calls !! t = Some (Some lg, c) ->
    sl_full (lg_ctx lg) \/
    forall t' lg' c', t' <> t -> calls !! t' = Some (Some lg', c') -> sl_arr (lg_ctx lg') <> sl_arr (lg_ctx lg).
(** Contexts in one array are the same context. *)
Definition same_or_apart (calls : list logged_call) : Prop :=
  forall t lg c t' lg' c', calls !! t = Some (Some lg, c) -> calls !! t' = Some (Some lg', c') ->
    sl_arr (lg_ctx lg) = sl_arr (lg_ctx lg') -> lg_ctx lg = lg_ctx lg'.
(** The callers' calls, none of them begun; with their lines and without. *)
Definition pool_l {S I} txt room (e : env) (io : provider S) L fuel (calls : list logged_call) : list (prog (logs * world S I) lib_reply) :=
  imap (fun t c => lib_do_l txt room t e io L fuel (fst c) (snd c)) calls.
Definition pool_plain {S I} (e : env) (io : provider S) L fuel (calls : list logged_call) : list (prog (world S I) lib_reply) :=
  map (fun c => lib_do e io L fuel (snd c)) calls.

(** Calls made one after another. *)
Inductive in_turn {S I} txt room (e : env) (io : provider S) L fuel : list logged_call -> logs * world S I -> logs * world S I -> Prop :=
| it_nil x : in_turn txt room e io L fuel [] x x
| it_call ctx c calls x r x1 x2 : run (lib_do_l txt room 0 e io L fuel ctx c) x = (r, x1) ->
    in_turn txt room e io L fuel calls x1 x2 -> in_turn txt room e io L fuel ((ctx, c) :: calls) x x2.
