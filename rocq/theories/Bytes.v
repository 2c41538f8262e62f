(** Bytes, byte strings and fixed-width integers.

    Go's [byte] is Coq's 256-constructor [byte]; Go strings and non-nil []byte values
    are lists of bytes.  Nothing here models a particular function of /repo; it
    is the vocabulary used by the other files (encoding/binary is modelled here because
    several packages use it). *)
From Coq Require Export NArith ZArith Lia List.
From Coq Require Export Init.Byte.
From Coq Require Import Strings.Byte.
From stdpp Require Import base decidable countable list.
Export ListNotations.
Local Open Scope N_scope.

Notation byte := Coq.Init.Byte.byte.
Definition bytes := list byte.

(** A Go []byte whose nil-ness matters: [None] is nil. *)
Definition gslice := option bytes.

(** Contents of a slice; len(nil) = 0. *)
Definition slice_bytes (s : gslice) : bytes := match s with Some b => b | None => [] end.

Definition bN (b : byte) : N := Coq.Strings.Byte.to_N b.
(** Conversion byte(n): truncation modulo 256 as in Go. *)
Definition Nb (n : N) : byte :=
  match Coq.Strings.Byte.of_N n with
  | Some b => b
  | None => match Coq.Strings.Byte.of_N (n mod 256) with Some b => b | None => x00 end
  end.

Definition byte_eqb (a b : byte) : bool := Coq.Strings.Byte.eqb a b.

Global Instance byte_eq_dec : EqDecision byte := Coq.Strings.Byte.byte_eq_dec.

Lemma bN_lt b : bN b < 256.
Proof. destruct b; vm_compute; reflexivity. Qed.
Lemma Nb_bN b : Nb (bN b) = b.
Proof. destruct b; vm_compute; reflexivity. Qed.
Lemma bN_Nb_mod n : bN (Nb n) = n mod 256.
Proof.
  unfold Nb, bN. destruct (Coq.Strings.Byte.of_N n) as [b|] eqn:E0.
  { assert (H := Coq.Strings.Byte.to_N_bounded b). apply Coq.Strings.Byte.to_of_N in E0. subst n. symmetry. apply N.mod_small. lia. }
  clear E0. destruct (Coq.Strings.Byte.of_N (n mod 256)) eqn:E.
  - now apply Coq.Strings.Byte.to_of_N in E.
  - apply Coq.Strings.Byte.of_N_None_iff in E.
    assert (n mod 256 < 256) by (apply N.mod_lt; lia). lia.
Qed.
Lemma bN_Nb n : n < 256 -> bN (Nb n) = n.
Proof. intros. rewrite bN_Nb_mod. now apply N.mod_small. Qed.
Lemma bN_inj a b : bN a = bN b -> a = b.
Proof. intros H. rewrite <- (Nb_bN a), <- (Nb_bN b). now rewrite H. Qed.

Global Instance byte_countable : Countable byte.
Proof.
  refine (inj_countable' bN Nb _). apply Nb_bN.
Defined.

Lemma byte_eqb_eq a b : byte_eqb a b = true <-> a = b.
Proof.
  unfold byte_eqb. split.
  - apply Coq.Strings.Byte.byte_dec_bl.
  - apply Coq.Strings.Byte.byte_dec_lb.
Qed.
Lemma byte_eqb_refl a : byte_eqb a a = true.
Proof. now apply byte_eqb_eq. Qed.

Fixpoint bytes_eqb (a b : bytes) : bool :=
  match a, b with
  | [], [] => true
  | x :: a', y :: b' => byte_eqb x y && bytes_eqb a' b'
  | _, _ => false
  end.
Lemma bytes_eqb_eq a : forall b, bytes_eqb a b = true <-> a = b.
Proof.
  induction a as [|x a IH]; intros [|y b]; simpl; try (split; congruence).
  rewrite Bool.andb_true_iff, byte_eqb_eq, IH.
  split; [intros [-> ->]; reflexivity | intros H; inversion H; auto].
Qed.
Lemma bytes_eqb_refl a : bytes_eqb a a = true.
Proof. now apply bytes_eqb_eq. Qed.
Lemma bytes_eqb_neq a b : bytes_eqb a b = false <-> a <> b.
Proof.
  rewrite <- (bytes_eqb_eq a b). destruct (bytes_eqb a b); split; congruence.
Qed.

(** Exhaustive sweeps over the 256 bytes. *)
Definition all_bytes : bytes := Eval vm_compute in map (fun n => Nb (N.of_nat n)) (seq 0 256).
Lemma all_bytes_In b : In b all_bytes.
Proof.
  change all_bytes with (map (fun n => Nb (N.of_nat n)) (seq 0 256)).
  apply in_map_iff. exists (N.to_nat (bN b)). split.
  - rewrite N2Nat.id. apply Nb_bN.
  - apply in_seq. pose proof (bN_lt b). lia.
Qed.
Lemma byte_forall (P : byte -> bool) : forallb P all_bytes = true -> forall b, P b = true.
Proof. intros H b. rewrite forallb_forall in H. apply H, all_bytes_In. Qed.
Lemma byte_fun_eq (f g : byte -> byte) :
  forallb (fun b => byte_eqb (f b) (g b)) all_bytes = true -> forall b, f b = g b.
Proof. intros H b. apply byte_eqb_eq. exact (byte_forall _ H b). Qed.
Ltac sweep b :=
  match goal with |- ?L = ?R =>
    let f := eval pattern b in L in
    let g := eval pattern b in R in
    match f with ?F _ => match g with ?G _ =>
      refine (byte_fun_eq F G _ b); vm_compute; reflexivity end end
  end.

(** Length as N. *)
Definition blen (l : bytes) : N := N.of_nat (length l).

(** ASCII literals. *)
Record bstr := BStr { str : bytes }.
Definition bstr_print (b : bstr) : list byte := let '(BStr l) := b in l.
Declare Scope bstr_scope.
Delimit Scope bstr_scope with bstr.
Bind Scope bstr_scope with bstr.
String Notation bstr BStr bstr_print : bstr_scope.
Arguments str _%bstr.

(** Zero-filled slice: make([]byte, n). *)
Definition zeros (n : nat) : bytes := repeat x00 n.
Lemma zeros_length n : length (zeros n) = n.
Proof. apply repeat_length. Qed.

(** XOR *)
Definition bxor (a b : byte) : byte :=
  let '(a0, (a1, (a2, (a3, (a4, (a5, (a6, a7))))))) := Coq.Init.Byte.to_bits a in
  let '(b0, (b1, (b2, (b3, (b4, (b5, (b6, b7))))))) := Coq.Init.Byte.to_bits b in
  Coq.Init.Byte.of_bits (xorb a0 b0, (xorb a1 b1, (xorb a2 b2, (xorb a3 b3,
    (xorb a4 b4, (xorb a5 b5, (xorb a6 b6, xorb a7 b7))))))).
Fixpoint xor_bytes (a b : bytes) : bytes :=
  match a, b with
  | x :: a', y :: b' => bxor x y :: xor_bytes a' b'
  | _, _ => []
  end.

Lemma lxor_lt_256 a b : a < 256 -> b < 256 -> N.lxor a b < 256.
Proof.
  intros Ha Hb. destruct (N.eq_dec (N.lxor a b) 0) as [->|Hn]; [lia|].
  change 256 with (2^8). apply N.log2_lt_pow2; [lia|].
  eapply N.le_lt_trans; [apply N.log2_lxor|].
  apply N.max_lub_lt.
  - destruct (N.eq_dec a 0) as [->|]; [vm_compute; reflexivity|].
    apply N.log2_lt_pow2; [lia|]. exact Ha.
  - destruct (N.eq_dec b 0) as [->|]; [vm_compute; reflexivity|].
    apply N.log2_lt_pow2; [lia|]. exact Hb.
Qed.
Definition bits_N (z : bool * (bool * (bool * (bool * (bool * (bool * (bool * bool))))))) : N :=
  let '(a0, (a1, (a2, (a3, (a4, (a5, (a6, a7))))))) := z in
  N.b2n a0 + 2 * (N.b2n a1 + 2 * (N.b2n a2 + 2 * (N.b2n a3 + 2 * (N.b2n a4 + 2 * (N.b2n a5 + 2 * (N.b2n a6 + 2 * N.b2n a7)))))).
Lemma bN_to_bits b : bN b = bits_N (Coq.Init.Byte.to_bits b).
Proof. destruct b; reflexivity. Qed.
Lemma lxor_b2n a b m n : N.lxor (N.b2n a + 2 * m) (N.b2n b + 2 * n) = N.b2n (xorb a b) + 2 * N.lxor m n.
Proof.
  apply N.bits_inj. intros i. rewrite N.lxor_spec. destruct (N.zero_or_succ i) as [->|[j ->]].
  - rewrite !(N.add_comm (N.b2n _)), !N.testbit_0_r. reflexivity.
  - rewrite !(N.add_comm (N.b2n _)), !N.testbit_succ_r. now rewrite N.lxor_spec.
Qed.
Lemma bN_bxor a b : bN (bxor a b) = N.lxor (bN a) (bN b).
Proof.
  unfold bxor. rewrite (bN_to_bits a), (bN_to_bits b).
  destruct (Coq.Init.Byte.to_bits a) as (a0 & a1 & a2 & a3 & a4 & a5 & a6 & a7).
  destruct (Coq.Init.Byte.to_bits b) as (b0 & b1 & b2 & b3 & b4 & b5 & b6 & b7).
  rewrite bN_to_bits, Coq.Init.Byte.to_bits_of_bits. unfold bits_N. rewrite !lxor_b2n.
  destruct a7, b7; reflexivity.
Qed.
Lemma bxor_invol a b : bxor (bxor a b) b = a.
Proof.
  apply bN_inj. rewrite !bN_bxor. rewrite N.lxor_assoc, N.lxor_nilpotent. apply N.lxor_0_r.
Qed.
Lemma bxor_comm a b : bxor a b = bxor b a.
Proof. apply bN_inj. rewrite !bN_bxor. apply N.lxor_comm. Qed.
Lemma bxor_assoc a b c : bxor (bxor a b) c = bxor a (bxor b c).
Proof. apply bN_inj. rewrite !bN_bxor. apply N.lxor_assoc. Qed.
Lemma bxor_nilp a : bxor a a = x00.
Proof. apply bN_inj. rewrite bN_bxor. rewrite N.lxor_nilpotent. reflexivity. Qed.
Lemma xor_bytes_length a b : length (xor_bytes a b) = Nat.min (length a) (length b).
Proof. revert b; induction a as [|x a IH]; intros [|y b]; simpl; auto. Qed.
Lemma xor_bytes_invol a : forall b, (length a <= length b)%nat -> xor_bytes (xor_bytes a b) b = a.
Proof.
  induction a as [|x a IH]; intros [|y b] H; simpl in *; try reflexivity; try lia.
  rewrite bxor_invol, IH by lia. reflexivity.
Qed.
Lemma xor_bytes_inj_l a b c :
  (length a <= length c)%nat -> (length b <= length c)%nat ->
  xor_bytes a c = xor_bytes b c -> a = b.
Proof.
  intros Ha Hb H. rewrite <- (xor_bytes_invol a c), <- (xor_bytes_invol b c) by assumption.
  now rewrite H.
Qed.

(** Big-endian numbers (binary.BigEndian). *)
Definition be_to_N (l : bytes) : N := fold_left (fun acc b => acc * 256 + bN b) l 0.
Fixpoint N_to_be (k : nat) (n : N) : bytes :=
  match k with
  | O => []
  | S k' => N_to_be k' (n / 256) ++ [Nb n]
  end.
Lemma N_to_be_length k n : length (N_to_be k n) = k.
Proof. revert n; induction k; intros; simpl; [reflexivity|]. rewrite app_length, IHk. simpl. lia. Qed.
Lemma be_to_N_app l b : be_to_N (l ++ [b]) = be_to_N l * 256 + bN b.
Proof. unfold be_to_N. now rewrite fold_left_app. Qed.
Lemma be_to_N_to_be k n : be_to_N (N_to_be k n) = n mod 256 ^ N.of_nat k.
Proof.
  revert n. induction k; intros n; [simpl; now rewrite N.mod_1_r|].
  cbn [N_to_be]. rewrite be_to_N_app, IHk, bN_Nb_mod.
  replace (N.of_nat (S k)) with (N.succ (N.of_nat k)) by lia.
  rewrite N.pow_succ_r'.
  rewrite N.mod_mul_r; lia.
Qed.
Lemma N_to_be_to_N l : N_to_be (length l) (be_to_N l) = l.
Proof.
  induction l as [|b l IH] using rev_ind; [reflexivity|].
  rewrite app_length, Nat.add_comm. cbn [length Nat.add N_to_be].
  rewrite be_to_N_app.
  assert (Hb := bN_lt b).
  replace ((be_to_N l * 256 + bN b) / 256) with (be_to_N l).
  2:{ rewrite N.add_comm, N.div_add by lia. rewrite N.div_small by assumption. lia. }
  rewrite IH. f_equal. f_equal. apply bN_inj. rewrite bN_Nb_mod.
  rewrite N.add_comm, N.mod_add by lia. now apply N.mod_small.
Qed.
Lemma be_to_N_inj a b : length a = length b -> be_to_N a = be_to_N b -> a = b.
Proof. intros Hl H. rewrite <- (N_to_be_to_N a), <- (N_to_be_to_N b). now rewrite H, Hl. Qed.
Lemma be_to_N_lt l : be_to_N l < 256 ^ N.of_nat (length l).
Proof.
  rewrite <- (N_to_be_to_N l) at 1. rewrite be_to_N_to_be. apply N.mod_lt.
  apply N.pow_nonzero. lia.
Qed.

(** Little-endian numbers (binary.LittleEndian). *)
Fixpoint N_to_le (k : nat) (n : N) : bytes :=
  match k with
  | O => []
  | S k' => Nb n :: N_to_le k' (n / 256)
  end.
Fixpoint le_to_N (l : bytes) : N :=
  match l with [] => 0 | b :: t => bN b + 256 * le_to_N t end.
Lemma N_to_le_length k n : length (N_to_le k n) = k.
Proof. revert n; induction k; intros; simpl; auto. Qed.
Lemma le_to_N_to_le k n : le_to_N (N_to_le k n) = n mod 256 ^ N.of_nat k.
Proof.
  revert n. induction k; intros n; [simpl; now rewrite N.mod_1_r|].
  cbn [N_to_le le_to_N]. rewrite IHk, bN_Nb_mod.
  replace (N.of_nat (S k)) with (N.succ (N.of_nat k)) by lia.
  rewrite N.pow_succ_r'.
  rewrite N.mod_mul_r; lia.
Qed.
Lemma N_to_le_to_N l : N_to_le (length l) (le_to_N l) = l.
Proof.
  induction l as [|b l IH]; [reflexivity|].
  cbn [length N_to_le le_to_N]. assert (Hb := bN_lt b). f_equal.
  - apply bN_inj. rewrite bN_Nb_mod. rewrite N.mul_comm, N.mod_add by lia. now apply N.mod_small.
  - rewrite N.mul_comm, N.div_add by lia. rewrite N.div_small by assumption. exact IH.
Qed.

(** Take/drop of a prefix of statically known length. *)
Lemma firstn_app_exact {A} (a b : list A) n : length a = n -> firstn n (a ++ b) = a.
Proof. intros <-. rewrite firstn_app, Nat.sub_diag. simpl. now rewrite firstn_all, app_nil_r. Qed.
Lemma skipn_app_exact {A} (a b : list A) n : length a = n -> skipn n (a ++ b) = b.
Proof. intros <-. rewrite skipn_app, Nat.sub_diag, skipn_all. reflexivity. Qed.

(** Hexadecimal literals, for test vectors. *)
Definition hexval (b : byte) : N :=
  let n := bN b in
  if (48 <=? n) && (n <=? 57) then n - 48
  else if (97 <=? n) && (n <=? 102) then n - 87
  else if (65 <=? n) && (n <=? 70) then n - 55 else 0.
Fixpoint unhex (l : bytes) : bytes :=
  match l with
  | a :: b :: t => Nb (16 * hexval a + hexval b) :: unhex t
  | _ => []
  end.
Definition hex (s : bstr) : bytes := unhex (str s).

Lemma app_eq_len {A} (a b c d : list A) : a ++ b = c ++ d -> length a = length c -> a = c /\ b = d.
Proof.
  revert c; induction a as [|x a IH]; intros [|y c] H L; simpl in *; try discriminate; auto.
  injection H as -> H. injection L as L. destruct (IH c H L) as [-> ->]. auto.
Qed.
