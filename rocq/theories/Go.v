(** Go results and effectful programs.

    A Go function that can fail returns (value, error); that is [res].  The
    only other way out of a call is a panic.  An effectful Go method is a [prog]:
    a result, or one atomic action on the world followed by a continuation. *)
From stdpp Require Import base decidable.
From Verif Require Import Bytes.

(** All error values the library can return.  The constructor comments name the Go value or
    the statement that creates it. *)
Inductive err : Type :=
(* d1.go:36-51 *)
| ED1NotAuthenticated | ED1NotAuthorized | ED1ObjectNotFound | ED1AccessNotFound
| ED1ObjectAlreadyExists | ED1AccessAlreadyExists
(* io/io.go:28-31 *)
| EIoNotFound | EIoAlreadyExists
(* any other error an io.Provider may return, e.g. a full disk *)
| EIoOther (n : N)
(* crypto/cryptor.go:27 *)
| EInvalidKeyLength
(* crypto/aes.go:36,64 / 67 / cipher.AEAD.Open failure *)
| EAesKeyLength | EAesCiphertextLength | EAesAuth
(* crypto/kwp.go:70,93,130,165,168,178,183,186,189 *)
| EKwpKeySize | EKwpParams | EKwpDataSize | EKwpTooSmall | EKwpTooLarge | EKwpIntegrity
| EKwpWrappedTooSmall | EKwpWrappedTooLarge | EKwpNotMultiple
(* crypto/random.go: the reader failed *)
| ERandom
(* encoding errors of json-iterator, encoding/base64, gofrs/uuid, time *)
| EJson | EBase64
(* data/token.go:78 *)
| ETokenExpired
(* id/standalone.go:32-44, id/standalone_user.go:25 *)
| EIdUserNotFound | EIdGroupNotFound | EIdUserAlreadyExists | EIdGroupAlreadyExists
| EIdNotAuthorized | EIdNotAuthenticated
(* index/index.go:37-49 *)
| EIxInvalidMasterKeyLength | EIxNotAuthenticated | EIxNotAuthorized | EIxNodeNotFound
| EIxNodeAlreadyExists
(* any error of a third-party id.Provider or key.Provider *)
| EIdOther (n : N) | EKeyOther (n : N)
(* not an error of the code: the model's loop counter ran out *)
| EFuel.

Global Instance err_eq_dec : EqDecision err.
Proof. solve_decision. Defined.

Inductive res (A : Type) : Type :=
| Ok (a : A)
| Err (e : err)
| Panic.
Arguments Ok {A} a.
Arguments Err {A} e.
Arguments Panic {A}.

Definition res_bind {A B} (r : res A) (k : A -> res B) : res B :=
  match r with Ok a => k a | Err e => Err e | Panic => Panic end.
Definition res_map {A B} (f : A -> B) (r : res A) : res B :=
  match r with Ok a => Ok (f a) | Err e => Err e | Panic => Panic end.

(** The slice expression b[lo:hi] of Go, which panics unless 0 <= lo <= hi <= len(b).  (Go compares hi
    with the capacity; every hi in the library's slice expressions is either len(b), or the operand
    is also sliced from hi to len(b), which panics if hi > len(b).) *)
Definition go_slice (lo hi : Z) (b : bytes) : res bytes :=
  if ((0 <=? lo) && (lo <=? hi) && (hi <=? Z.of_nat (length b)))%Z%bool
  then Ok (firstn (Z.to_nat (hi - lo)) (skipn (Z.to_nat lo) b)) else Panic.
Definition go_to (hi : Z) (b : bytes) : res bytes := go_slice 0 hi b.
Definition go_from (lo : Z) (b : bytes) : res bytes := go_slice lo (Z.of_nat (length b)) b.
Definition go_len (b : bytes) : Z := Z.of_nat (length b).

(** Programs. *)
Inductive prog (W A : Type) : Type :=
| Ret (a : A)
| Step (X : Type) (f : W -> X * W) (k : X -> prog W A).
Arguments Ret {W A} a.
Arguments Step {W A X} f k.

Fixpoint bind {W A B} (p : prog W A) (k : A -> prog W B) : prog W B :=
  match p with
  | Ret a => k a
  | Step f c => Step f (fun x => bind (c x) k)
  end.

(** One atomic action. *)
Definition act {W X} (f : W -> X * W) : prog W X := Step f Ret.

(** Sequencing with Go's "if err != nil { return err }". *)
Definition bindR {W A B} (p : prog W (res A)) (k : A -> prog W (res B)) : prog W (res B) :=
  bind p (fun r => match r with Ok a => k a | Err e => Ret (Err e) | Panic => Ret Panic end).
Definition lift {W A} (r : res A) : prog W (res A) := Ret r.

Declare Scope go_scope.
Delimit Scope go_scope with go.
Notation "'let!' x ':=' p 'in' k" := (bindR p (fun x => k))
  (at level 200, x pattern, p at level 100, k at level 200, right associativity) : go_scope.
Notation "'let*' x ':=' p 'in' k" := (bind p (fun x => k))
  (at level 200, x pattern, p at level 100, k at level 200, right associativity) : go_scope.

(** Replacing an error: the pattern "if errors.Is(err, X) { return Y }; return err". *)
Definition map_err {W A} (f : err -> err) (p : prog W (res A)) : prog W (res A) :=
  bind p (fun r => Ret match r with Ok a => Ok a | Err e => Err (f e) | Panic => Panic end).

(** Sequential execution. *)
Fixpoint run {W A} (p : prog W A) (w : W) : A * W :=
  match p with
  | Ret a => (a, w)
  | Step f k => let '(x, w') := f w in run (k x) w'
  end.

(** Execution of at most [n] atomic actions: what is left of the program and the world when
    the process stops there. *)
Fixpoint run_n {W A} (n : nat) (p : prog W A) (w : W) : prog W A * W :=
  match n, p with
  | S n', Step f k => let '(x, w') := f w in run_n n' (k x) w'
  | _, _ => (p, w)
  end.

(** Number of atomic actions of a complete sequential run. *)
Fixpoint nsteps {W A} (p : prog W A) (w : W) : nat :=
  match p with
  | Ret _ => 0
  | Step f k => let '(x, w') := f w in S (nsteps (k x) w')
  end.

(** Basic laws. *)
Lemma go_to_ok n b : (n <= length b)%nat -> go_to (Z.of_nat n) b = Ok (firstn n b).
Proof.
  intros H. unfold go_to, go_slice. destruct (Z.leb_spec 0 (Z.of_nat n)); [|lia]. destruct (Z.leb_spec (Z.of_nat n) (Z.of_nat (length b))); [|lia].
  cbn [andb Z.leb]. now rewrite Z.sub_0_r, Nat2Z.id.
Qed.
Lemma go_from_ok n b : (n <= length b)%nat -> go_from (Z.of_nat n) b = Ok (skipn n b).
Proof.
  intros H. unfold go_from, go_slice. destruct (Z.leb_spec 0 (Z.of_nat n)); [|lia]. destruct (Z.leb_spec (Z.of_nat n) (Z.of_nat (length b))); [|lia].
  rewrite Z.leb_refl. cbn [andb]. rewrite Nat2Z.id, firstn_all2; [reflexivity|]. rewrite skipn_length. lia.
Qed.
Lemma go_slice_ok lo n b : (lo + n <= length b)%nat -> go_slice (Z.of_nat lo) (Z.of_nat (lo + n)) b = Ok (firstn n (skipn lo b)).
Proof.
  intros H. unfold go_slice. destruct (Z.leb_spec 0 (Z.of_nat lo)); [|lia]. destruct (Z.leb_spec (Z.of_nat lo) (Z.of_nat (lo + n))); [|lia].
  destruct (Z.leb_spec (Z.of_nat (lo + n)) (Z.of_nat (length b))); [|lia]. cbn [andb].
  replace (Z.of_nat (lo + n) - Z.of_nat lo)%Z with (Z.of_nat n) by lia. now rewrite !Nat2Z.id.
Qed.
Lemma run_bind {W A B} (p : prog W A) (k : A -> prog W B) w :
  run (bind p k) w = let '(a, w') := run p w in run (k a) w'.
Proof.
  revert w; induction p as [a|X f c IH]; intros w; [reflexivity|].
  cbn [bind run]. destruct (f w) as [x w']. apply IH.
Qed.
Lemma run_bindR {W A B} (p : prog W (res A)) (k : A -> prog W (res B)) w :
  run (bindR p k) w =
  match run p w with
  | (Ok a, w') => run (k a) w'
  | (Err e, w') => (Err e, w')
  | (Panic, w') => (Panic, w')
  end.
Proof.
  unfold bindR. rewrite run_bind. destruct (run p w) as [[a|e|] w']; reflexivity.
Qed.
Lemma run_lift {W A} (r : res A) (w : W) : run (lift r) w = (r, w).
Proof. reflexivity. Qed.
Lemma run_ret {W A} (a : A) (w : W) : run (Ret a) w = (a, w).
Proof. reflexivity. Qed.
Lemma run_act {W X} (f : W -> X * W) w : run (act f) w = f w.
Proof. unfold act. cbn [run]. now destruct (f w). Qed.
Lemma run_map_err {W A} f (p : prog W (res A)) w :
  run (map_err f p) w =
  match run p w with
  | (Ok a, w') => (Ok a, w')
  | (Err e, w') => (Err (f e), w')
  | (Panic, w') => (Panic, w')
  end.
Proof. unfold map_err. rewrite run_bind. destruct (run p w) as [[a|e|] w']; reflexivity. Qed.
