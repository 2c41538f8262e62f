(** RFC 3339 text: parsing inverts printing. *)
From Coq Require Import ZArith ZifyN ZifyNat.
From Verif Require Import Bytes Json JsonProofs Time.
Local Open Scope bool_scope.
Local Open Scope Z_scope.
Ltac Zify.zify_post_hook ::= Z.to_euclidean_division_equations.

Lemma some_inj {A} (a b : A) : Some a = Some b -> a = b.
Proof. congruence. Qed.

(** ** Calendar *)
Definition civil_ok (doe : Z) : bool :=
  let yoe := (doe - doe / 1460 + doe / 36524 - doe / 146096) / 365 in
  let doy := doe - (365 * yoe + yoe / 4 - yoe / 100) in
  let mp := (5 * doy + 2) / 153 in
  let d := doy - (153 * mp + 2) / 5 + 1 in
  let m := if mp <? 10 then mp + 3 else mp - 9 in
  let y := yoe + (if m <=? 2 then 1 else 0) in
  (0 <=? yoe) && (yoe <? 400) && (0 <=? mp) && (mp <? 12) && (1 <=? d) && (d <=? days_in y m).
Fixpoint all_below (n : nat) (z : Z) (p : Z -> bool) : bool :=
  match n with O => true | S n' => p z && all_below n' (z + 1) p end.
Lemma all_below_spec n : forall z p, all_below n z p = true -> forall x, z <= x < z + Z.of_nat n -> p x = true.
Proof.
  induction n as [|n IH]; intros z p H x Hx; [lia|]. cbn [all_below] in H.
  apply Bool.andb_true_iff in H as [H1 H2].
  destruct (Z.eq_dec x z) as [->|Hne]; [assumption|]. apply (IH (z + 1) p H2). lia.
Qed.
(** Start of the March-based year [y] of a 400-year era, in days. *)
Definition yr_start (y : Z) : Z := 365 * y + y / 4 - y / 100.
Definition yr_next (y : Z) : Z := if y =? 399 then 146097 else yr_start (y + 1).
Definition yoe_of (doe : Z) : Z := (doe - doe / 1460 + doe / 36524 - doe / 146096) / 365.
Lemma yoe_mono_step d : 0 <= d < 146096 -> yoe_of d <= yoe_of (d + 1).
Proof.
  intros H. unfold yoe_of. apply Z.div_le_mono; [lia|].
  assert ((d + 1) / 1460 <= d / 1460 + 1) by lia.
  destruct (Z.eq_dec d 146095) as [->|Hne]; [vm_compute; discriminate|].
  replace ((d + 1) / 146096) with 0 by lia. replace (d / 146096) with 0 by lia.
  assert (d / 36524 <= (d + 1) / 36524) by lia. lia.
Qed.
Lemma yoe_mono n : forall d, 0 <= d -> d + Z.of_nat n < 146097 -> yoe_of d <= yoe_of (d + Z.of_nat n).
Proof.
  induction n as [|n IH]; intros d H1 H2; [replace (d + Z.of_nat 0) with d by lia; lia|].
  specialize (IH d H1 ltac:(lia)). pose proof (yoe_mono_step (d + Z.of_nat n) ltac:(lia)).
  replace (d + Z.of_nat (S n)) with (d + Z.of_nat n + 1) by lia. lia.
Qed.
Definition year_ok (y : Z) : bool :=
  (yoe_of (yr_start y) =? y) && (yoe_of (yr_next y - 1) =? y) && (yr_start y <? yr_next y) && (yr_next y <=? 146097) &&
  (yr_next y - yr_start y =? (if is_leap (y + 1) then 366 else 365)).
Lemma year_sweep : all_below 400 0 year_ok = true.
Proof. vm_compute. reflexivity. Qed.
Lemma year_exists n : (n <= 400)%nat -> forall doe, 0 <= doe < (if Z.of_nat n =? 400 then 146097 else yr_start (Z.of_nat n)) ->
  exists y, 0 <= y < 400 /\ yr_start y <= doe < yr_next y.
Proof.
  induction n as [|n IH]; intros Hn doe H.
  - exfalso. change (yr_start (Z.of_nat 0)) with 0 in H. change (Z.of_nat 0 =? 400) with false in H. cbv iota in H. lia.
  - destruct (Z.lt_ge_cases doe (yr_start (Z.of_nat n))) as [L|G].
    + apply IH; [lia|]. destruct (Z.eqb_spec (Z.of_nat n) 400); lia.
    + exists (Z.of_nat n). split; [lia|]. split; [exact G|]. unfold yr_next.
      destruct (Z.eqb_spec (Z.of_nat n) 399) as [E|E].
      * destruct (Z.eqb_spec (Z.of_nat (S n)) 400); [lia|lia].
      * destruct (Z.eqb_spec (Z.of_nat (S n)) 400); [lia|]. replace (Z.of_nat n + 1) with (Z.of_nat (S n)) by lia. lia.
Qed.
Definition day_ok (doy : Z) : bool :=
  let mp := (5 * doy + 2) / 153 in
  let d := doy - (153 * mp + 2) / 5 + 1 in
  let m := if mp <? 10 then mp + 3 else mp - 9 in
  (0 <=? mp) && (mp <? 12) && (1 <=? d) && (d <=? (if m =? 2 then (if doy =? 365 then 29 else 28) else
    if (m =? 4) || (m =? 6) || (m =? 9) || (m =? 11) then 30 else 31)) &&
  (if doy =? 365 then m =? 2 else true).
Lemma day_sweep : all_below 366 0 day_ok = true.
Proof. vm_compute. reflexivity. Qed.

Lemma civil_sweep doe : 0 <= doe < 146097 -> civil_ok doe = true.
Proof.
  intros H.
  destruct (year_exists 400 ltac:(lia) doe) as (y & Hy & Hd).
  { change (Z.of_nat 400 =? 400) with true. cbv iota. lia. }
  pose proof (all_below_spec _ _ _ year_sweep y ltac:(lia)) as Y. unfold year_ok in Y.
  repeat (apply Bool.andb_true_iff in Y; destruct Y as [Y ?]).
  repeat match goal with H : (_ <=? _) = true |- _ => apply Z.leb_le in H | H : (_ <? _) = true |- _ => apply Z.ltb_lt in H
    | H : (_ =? _) = true |- _ => apply Z.eqb_eq in H end.
  assert (P0 : 0 <= yr_start y) by (unfold yr_start; lia).
  assert (E : yoe_of doe = y).
  { pose proof (yoe_mono (Z.to_nat (doe - yr_start y)) (yr_start y) P0 ltac:(lia)) as M1.
    pose proof (yoe_mono (Z.to_nat (yr_next y - 1 - doe)) doe ltac:(lia) ltac:(lia)) as M2.
    rewrite !Z2Nat.id in * by lia.
    replace (yr_start y + (doe - yr_start y)) with doe in M1 by lia.
    replace (doe + (yr_next y - 1 - doe)) with (yr_next y - 1) in M2 by lia. lia. }
  unfold civil_ok. change ((doe - doe / 1460 + doe / 36524 - doe / 146096) / 365) with (yoe_of doe). rewrite E.
  change (365 * y + y / 4 - y / 100) with (yr_start y).
  set (doy := doe - yr_start y).
  assert (Hdoy : 0 <= doy < 366) by (destruct (is_leap (y + 1)); lia).
  assert (HL : doy = 365 -> is_leap (y + 1) = true) by (destruct (is_leap (y + 1)); [reflexivity|lia]).
  pose proof (all_below_spec _ _ _ day_sweep doy ltac:(lia)) as D. unfold day_ok in D.
  clearbody doy. cbv zeta in D |- *.
  set (mp := (5 * doy + 2) / 153) in *. set (d := doy - (153 * mp + 2) / 5 + 1) in *.
  repeat (apply Bool.andb_true_iff in D; destruct D as [D ?]).
  repeat (apply Bool.andb_true_iff; split); try assumption; try (apply Z.leb_le; lia); try (apply Z.ltb_lt; lia).
  clearbody d mp.
  generalize dependent (if mp <? 10 then mp + 3 else mp - 9). intros m ? ?.
  unfold days_in. destruct (Z.eqb_spec m 2) as [Em|Hm]; [|assumption]. subst m.
  change (2 <=? 2) with true. cbv iota.
  destruct (Z.eqb_spec doy 365) as [E5|E5].
  - rewrite (HL E5). assumption.
  - apply Z.leb_le. match goal with H : (d <=? 28) = true |- _ => apply Z.leb_le in H end. destruct (is_leap (y + 1)); lia.
Qed.

Lemma is_leap_400 y e : is_leap (y + e * 400) = is_leap y.
Proof.
  unfold is_leap.
  replace ((y + e * 400) mod 4) with (y mod 4) by lia.
  replace ((y + e * 400) mod 100) with (y mod 100) by lia.
  replace ((y + e * 400) mod 400) with (y mod 400) by lia. reflexivity.
Qed.
Lemma days_in_400 y e m : days_in (y + e * 400) m = days_in y m.
Proof. unfold days_in. now rewrite is_leap_400. Qed.

Lemma civil_roundtrip z : let '(y, m, d) := civil_from_days z in
  days_from_civil y m d = z /\ 1 <= m <= 12 /\ 1 <= d <= days_in y m.
Proof.
  unfold civil_from_days.
  set (doe := (z + 719468) mod 146097). set (era := (z + 719468) / 146097).
  assert (Hz : z = era * 146097 + doe - 719468) by (subst era doe; lia).
  assert (Hd : 0 <= doe < 146097) by (subst doe; lia).
  pose proof (civil_sweep doe Hd) as HC.
  unfold civil_ok in HC. clearbody doe era. subst z.
  set (yoe := (doe - doe / 1460 + doe / 36524 - doe / 146096) / 365) in *.
  set (doy := doe - (365 * yoe + yoe / 4 - yoe / 100)) in *.
  set (mp := (5 * doy + 2) / 153) in *.
  assert (Hdoe : doe = yoe * 365 + yoe / 4 - yoe / 100 + doy) by (subst doy; lia).
  clearbody mp. clearbody doy. clearbody yoe. subst doe.
  repeat (apply Bool.andb_true_iff in HC; destruct HC as [HC ?]).
  repeat match goal with H : (_ <=? _) = true |- _ => apply Z.leb_le in H | H : (_ <? _) = true |- _ => apply Z.ltb_lt in H end.
  destruct (Z.ltb_spec mp 10) as [Hmp|Hmp].
  - destruct (Z.leb_spec (mp + 3) 2); [lia|].
    split; [|split; [lia|]].
    + unfold days_from_civil. destruct (Z.leb_spec (mp + 3) 2); [lia|].
      replace (mp + 3 - 3) with mp by lia.
      replace ((yoe + era * 400 + 0) / 400) with era by lia.
      replace ((yoe + era * 400 + 0) mod 400) with yoe by lia. lia.
    + replace (yoe + era * 400 + 0) with (yoe + 0 + era * 400) by lia. rewrite days_in_400. lia.
  - destruct (Z.leb_spec (mp - 9) 2); [|lia].
    split; [|split; [lia|]].
    + unfold days_from_civil. destruct (Z.leb_spec (mp - 9) 2); [|lia].
      replace (mp - 9 + 9) with mp by lia.
      replace (yoe + era * 400 + 1 - 1) with (yoe + era * 400) by lia.
      replace ((yoe + era * 400) / 400) with era by lia.
      replace ((yoe + era * 400) mod 400) with yoe by lia. lia.
    + replace (yoe + era * 400 + 1) with (yoe + 1 + era * 400) by lia. rewrite days_in_400. lia.
Qed.

(** ** Digits *)
Lemma dec_digit_digit n : 0 <= n < 10 -> dec_digit (digit n) = Some (Z.to_N n).
Proof. intros H. unfold digit. rewrite dec_digit_Nb by lia. reflexivity. Qed.
Lemma undigits_app l1 : forall l2 a, undigits (l1 ++ l2) a =
  match undigits l1 a with Some n => undigits l2 n | None => None end.
Proof. induction l1 as [|b l1 IH]; intros l2 a; [reflexivity|]. cbn [app undigits]. destruct (dec_digit b); auto. Qed.
Lemma undigits_pad k : forall n a, 0 <= n < 10 ^ Z.of_nat k -> undigits (pad k n) a = Some (a * 10 ^ Z.of_nat k + n).
Proof.
  induction k as [|k IH]; intros n a H.
  - cbn in *. f_equal. lia.
  - cbn [pad]. rewrite Nat2Z.inj_succ, Z.pow_succ_r in * by lia.
    rewrite undigits_app, IH by lia. cbn [undigits]. rewrite dec_digit_digit by lia. f_equal.
    rewrite Z2N.id by lia. lia.
Qed.
Lemma pad_length k : forall n, length (pad k n) = k.
Proof. induction k; intros n; [reflexivity|]. cbn [pad]. rewrite app_length, IHk. cbn. lia. Qed.
Lemma pad_digits k : forall n b, In b (pad k n) -> exists d, dec_digit b = Some d.
Proof.
  induction k as [|k IH]; intros n b H; [destruct H|]. cbn [pad] in H. apply in_app_iff in H as [H|[<-|[]]].
  - eauto.
  - eexists. apply dec_digit_digit. lia.
Qed.

Lemma strip0_app l : exists z, l = strip0 l ++ repeat x30 z.
Proof.
  induction l as [|b l [z IH]]; [exists 0%nat; reflexivity|].
  cbn [strip0]. destruct (strip0 l) as [|c t] eqn:E.
  - destruct (byte_eqb b x30) eqn:Eb.
    + apply byte_eqb_eq in Eb. subst b. exists (S z). cbn [app repeat] in *. now rewrite <- IH.
    + exists z. cbn [app] in *. now rewrite <- IH.
  - exists z. rewrite IH at 1. reflexivity.
Qed.
Lemma undigits_zeros z a : undigits (repeat x30 z) a = Some (a * 10 ^ Z.of_nat z).
Proof.
  revert a. induction z as [|z IH]; intros a; [cbn; f_equal; lia|].
  cbn [repeat undigits]. change (dec_digit x30) with (Some 0%N). cbv iota. rewrite IH. f_equal.
  rewrite Nat2Z.inj_succ, Z.pow_succ_r by lia. lia.
Qed.
Lemma strip0_zero l : strip0 l = [] -> forall b, In b l -> b = x30.
Proof.
  intros H. destruct (strip0_app l) as [z Hz]. rewrite H in Hz. cbn in Hz. rewrite Hz.
  intros b Hb. now apply repeat_spec in Hb.
Qed.

Lemma span_digits_app ds : forall r, (forall b, In b ds -> exists d, dec_digit b = Some d) ->
  (match r with [] => True | b :: _ => dec_digit b = None end) -> span_digits (ds ++ r) = (ds, r).
Proof.
  induction ds as [|b ds IH]; intros r H D.
  - destruct r as [|c r]; [reflexivity|]. cbn [app span_digits]. now rewrite D.
  - cbn [app span_digits]. destruct (H b (or_introl eq_refl)) as [d ->].
    rewrite IH; auto. intros c Hc. apply H. now right.
Qed.

Definition nondigit_head (r : bytes) : Prop := exists b t, r = b :: t /\ dec_digit b = None /\ byte_eqb b x2e = false.

Lemma frac_roundtrip ns r : 0 <= ns < 1000000000 -> nondigit_head r ->
  frac_parse (frac_text ns ++ r) = Some (ns, r).
Proof.
  intros H (b & t & -> & Hb & Hd). unfold frac_text.
  destruct (strip0_app (pad 9 ns)) as [z Hz].
  pose proof (undigits_pad 9 ns 0 ltac:(exact H)) as U.
  rewrite Z.mul_0_l, Z.add_0_l in U.
  destruct (strip0 (pad 9 ns)) as [|c ds] eqn:E.
  - cbn [app] in *. rewrite Hz, undigits_zeros in U. rewrite Z.mul_0_l in U.
    cbn [frac_parse]. rewrite Hd. injection U as <-. reflexivity.
  - change (str "." ++ c :: ds) with (x2e :: c :: ds).
    cbn [app frac_parse]. change (byte_eqb x2e x2e) with true. cbv iota.
    assert (L : (length (c :: ds) + z = 9)%nat).
    { pose proof (f_equal (@length _) Hz) as L. rewrite app_length, repeat_length, pad_length in L. lia. }
    change (c :: ds ++ b :: t) with ((c :: ds) ++ b :: t).
    rewrite span_digits_app; [|intros x Hx|exact Hb].
    2:{ apply (pad_digits 9 ns). rewrite Hz. apply in_app_iff. now left. }
    rewrite firstn_all2 by lia.
    rewrite Hz, undigits_app in U.
    destruct (undigits (c :: ds) 0) as [n|] eqn:En; [|discriminate U].
    rewrite undigits_zeros in U. injection U as U.
    do 2 f_equal. rewrite <- U. replace (9 - Z.of_nat (length (c :: ds))) with (Z.of_nat z) by lia.
    reflexivity.
Qed.

Lemma zone_text_head off r : nondigit_head (zone_text off ++ r).
Proof.
  unfold zone_text. destruct (off =? 0); [|destruct (off <? 0)]; eexists _, _; (split; [reflexivity|split; reflexivity]).
Qed.

Lemma pad2 n : exists a b, pad 2 n = [a; b].
Proof. cbn [pad app]. eauto. Qed.
Lemma pad4 n : exists a b c d, pad 4 n = [a; b; c; d].
Proof. cbn [pad app]. eauto 6. Qed.

Lemma zone_roundtrip off : -1440 < off < 1440 -> zone_parse (zone_text off) = Some off.
Proof.
  intros H. unfold zone_text.
  destruct (Z.eqb_spec off 0) as [->|Hn]; [reflexivity|].
  pose proof (undigits_pad 2 (Z.abs off / 60) 0 ltac:(change (10 ^ Z.of_nat 2) with 100; lia)) as U1.
  pose proof (undigits_pad 2 (Z.abs off mod 60) 0 ltac:(change (10 ^ Z.of_nat 2) with 100; lia)) as U2.
  destruct (pad2 (Z.abs off / 60)) as (a & b & Ea). destruct (pad2 (Z.abs off mod 60)) as (c & d & Ec).
  rewrite Ea in *. rewrite Ec in *. change (str ":") with [x3a].
  destruct (Z.ltb_spec off 0).
  - change (str "-") with [x2d]. cbn [app zone_parse]. rewrite U1, U2.
    change (byte_eqb x3a x3a) with true. change (byte_eqb x2d x2b) with false. change (byte_eqb x2d x2d) with true.
    change (10 ^ Z.of_nat 2) with 100. cbn [negb orb]. destruct (Z.leb_spec 1440 ((0 * 100 + Z.abs off / 60) * 60 + (0 * 100 + Z.abs off mod 60))); [lia|]. f_equal. lia.
  - change (str "+") with [x2b]. cbn [app zone_parse]. rewrite U1, U2.
    change (byte_eqb x3a x3a) with true. change (byte_eqb x2b x2b) with true.
    change (10 ^ Z.of_nat 2) with 100. cbn [negb orb]. destruct (Z.leb_spec 1440 ((0 * 100 + Z.abs off / 60) * 60 + (0 * 100 + Z.abs off mod 60))); [lia|]. f_equal. lia.
Qed.

Lemma time_roundtrip t s : time_wf t -> time_text t = Some s -> time_parse s = Some t.
Proof.
  intros [Hns Hoff] H. unfold time_text in H.
  set (local := t_sec t + 60 * t_off t) in *.
  pose proof (civil_roundtrip (local / 86400)) as C.
  destruct (civil_from_days (local / 86400)) as [[y m] d]. destruct C as (Cd & Cm & Cday).
  destruct ((0 <=? y) && (y <=? 9999)) eqn:Ey; [|discriminate H].
  apply Bool.andb_true_iff in Ey as [Ey1 Ey2]. apply Z.leb_le in Ey1, Ey2.
  apply some_inj in H. subst s.
  assert (Hd31 : days_in y m <= 31).
  { unfold days_in. repeat match goal with |- context [if ?c then _ else _] => destruct c end; lia. }
  set (sd := local mod 86400) in *. assert (Hsd : 0 <= sd < 86400) by (subst sd; lia).
  pose proof (undigits_pad 4 y 0 ltac:(change (10 ^ Z.of_nat 4) with 10000; lia)) as U1.
  pose proof (undigits_pad 2 m 0 ltac:(change (10 ^ Z.of_nat 2) with 100; lia)) as U2.
  pose proof (undigits_pad 2 d 0 ltac:(change (10 ^ Z.of_nat 2) with 100; lia)) as U3.
  pose proof (undigits_pad 2 (sd / 3600) 0 ltac:(change (10 ^ Z.of_nat 2) with 100; lia)) as U4.
  pose proof (undigits_pad 2 (sd / 60 mod 60) 0 ltac:(change (10 ^ Z.of_nat 2) with 100; lia)) as U5.
  pose proof (undigits_pad 2 (sd mod 60) 0 ltac:(change (10 ^ Z.of_nat 2) with 100; lia)) as U6.
  destruct (pad4 y) as (y1 & y2 & y3 & y4 & E1). destruct (pad2 m) as (m1 & m2 & E2).
  destruct (pad2 d) as (d1 & d2 & E3). destruct (pad2 (sd / 3600)) as (h1 & h2 & E4).
  destruct (pad2 (sd / 60 mod 60)) as (n1 & n2 & E5). destruct (pad2 (sd mod 60)) as (c1 & c2 & E6).
  rewrite E1 in U1 |- *. rewrite E2 in U2 |- *. rewrite E3 in U3 |- *. rewrite E4 in U4 |- *.
  rewrite E5 in U5 |- *. rewrite E6 in U6 |- *.
  change (str "-") with [x2d]. change (str "T") with [x54]. change (str ":") with [x3a].
  cbn [app]. unfold time_parse. rewrite U1, U2, U3, U4, U5, U6.
  pose proof (zone_text_head (t_off t) []) as ZH. rewrite app_nil_r in ZH.
  rewrite frac_roundtrip by assumption.
  rewrite zone_roundtrip by assumption.
  change (byte_eqb x2d x2d) with true. change (byte_eqb x3a x3a) with true. change (byte_eqb x54 x54) with true.
  cbn [andb]. rewrite !Z.mul_0_l, !Z.add_0_l.
  replace (1 <=? m) with true by lia. replace (m <=? 12) with true by lia.
  replace (1 <=? d) with true by lia. replace (d <=? days_in y m) with true by lia.
  replace (sd / 3600 <? 24) with true by lia. replace (sd / 60 mod 60 <? 60) with true by lia.
  replace (sd mod 60 <? 60) with true by lia. cbn [andb].
  f_equal. destruct t as [sec ns off]; cbn [t_sec t_ns t_off] in *. f_equal.
  rewrite Cd. subst sd. subst local. lia.
Qed.

(** The characters of a printed time need no escaping and are not base64 letters only. *)
Definition time_char (b : byte) : bool :=
  inr 48 57 b || byte_eqb b x2d || byte_eqb b x3a || byte_eqb b x54 || byte_eqb b x5a || byte_eqb b x2e || byte_eqb b x2b.
Lemma digit_char n : 0 <= n < 10 -> time_char (digit n) = true.
Proof.
  intros H. pose proof (dec_digit_digit n H) as D. unfold dec_digit in D. unfold time_char.
  destruct (inr 48 57 (digit n)); [reflexivity|discriminate].
Qed.
Lemma pad_chars k : forall n, forallb time_char (pad k n) = true.
Proof.
  induction k as [|k IH]; intros n; [reflexivity|]. cbn [pad]. rewrite forallb_app, IH. cbn [forallb andb].
  rewrite digit_char by lia. reflexivity.
Qed.
Lemma frac_chars ns : forallb time_char (frac_text ns) = true.
Proof.
  unfold frac_text. destruct (strip0_app (pad 9 ns)) as [z Hz]. pose proof (pad_chars 9 ns) as P.
  rewrite Hz, forallb_app in P. apply Bool.andb_true_iff in P as [P _].
  destruct (strip0 (pad 9 ns)); [reflexivity|]. exact P.
Qed.
Lemma zone_chars off : forallb time_char (zone_text off) = true.
Proof.
  unfold zone_text. destruct (off =? 0); [reflexivity|].
  destruct (off <? 0); rewrite !forallb_app, !pad_chars; reflexivity.
Qed.
Lemma time_text_chars t s : time_text t = Some s -> forallb time_char s = true.
Proof.
  unfold time_text. destruct (civil_from_days _) as [[y m] d]. destruct (_ && _); [|discriminate].
  intros H. apply some_inj in H. subst s. rewrite !forallb_app, !pad_chars, frac_chars, zone_chars. reflexivity.
Qed.
Lemma time_text_valid t s : time_text t = Some s -> valid_utf8 s = true.
Proof.
  intros H. apply ascii_valid. pose proof (time_text_chars t s H) as C. rewrite forallb_forall in *.
  intros b Hb. specialize (C b Hb). clear - C. destruct b; vm_compute in C; try discriminate C; reflexivity.
Qed.
(** The fifth character is a dash. *)
Lemma time_text_dash t s : time_text t = Some s -> nth 4 s x00 = x2d.
Proof.
  unfold time_text. destruct (civil_from_days _) as [[y m] d]. destruct (_ && _); [|discriminate].
  intros H. apply some_inj in H. subst s. destruct (pad4 y) as (a & b & c & e & ->). reflexivity.
Qed.

(** The zero time prints (it is the expiry of a token decoded from an empty object). *)
Example time_zero_text : time_text time_zero = Some (str "0001-01-01T00:00:00Z").
Proof. vm_compute. reflexivity. Qed.
Example time_2022_text : time_text (mkT 1664549130 120000000 120) = Some (str "2022-09-30T16:45:30.12+02:00").
Proof. vm_compute. reflexivity. Qed.
Example time_leap_text : time_text (mkT 951782400 5 (-90)) = Some (str "2000-02-28T22:30:00.000000005-01:30").
Proof. vm_compute. reflexivity. Qed.

(** What the parser accepts is a time. *)
Lemma undigits_bound l : forall a n, 0 <= a -> undigits l a = Some n -> 0 <= n < (a + 1) * 10 ^ Z.of_nat (length l).
Proof.
  induction l as [|b l IH]; intros a n Ha H; cbn [undigits] in H.
  - injection H as <-. cbn. lia.
  - destruct (dec_digit b) as [d|] eqn:E; [|discriminate].
    assert (D : 0 <= Z.of_N d < 10).
    { unfold dec_digit, inr in E. destruct (_ && _) eqn:C; [|discriminate]. injection E as <-. apply Bool.andb_true_iff in C. rewrite !N.leb_le in C. lia. }
    apply IH in H; [|lia]. cbn [length]. rewrite Nat2Z.inj_succ, Z.pow_succ_r by lia.
    pose proof (Z.pow_pos_nonneg 10 (Z.of_nat (length l)) ltac:(lia) ltac:(lia)). nia.
Qed.
Lemma frac_parse_wf l ns r : frac_parse l = Some (ns, r) -> 0 <= ns < 1000000000.
Proof.
  unfold frac_parse. destruct l as [|b t]; [intros H; injection H as <- <-; lia|].
  destruct (byte_eqb b x2e); [|intros H; injection H as <- <-; lia].
  destruct (span_digits t) as [ds r']. destruct ds as [|d0 ds]; [discriminate|].
  destruct (undigits (firstn 9 (d0 :: ds)) 0) as [n|] eqn:E; [|discriminate]. intros H. injection H as <- <-.
  apply undigits_bound in E; [|lia]. pose proof (firstn_le_length 9 (d0 :: ds)) as L. 
  set (k := length (firstn 9 (d0 :: ds))) in *. 
  assert (P : 10 ^ Z.of_nat k * 10 ^ (9 - Z.of_nat k) = 1000000000).
  { rewrite <- Z.pow_add_r by lia. replace (Z.of_nat k + (9 - Z.of_nat k)) with 9 by lia. reflexivity. }
  pose proof (Z.pow_pos_nonneg 10 (9 - Z.of_nat k) ltac:(lia) ltac:(lia)). rewrite <- P. split; [apply Z.mul_nonneg_nonneg; lia|apply Z.mul_lt_mono_pos_r; lia].
Qed.
Lemma zone_parse_wf l off : zone_parse l = Some off -> -1440 < off < 1440.
Proof.
  unfold zone_parse. destruct l as [|z [|h1 [|h2 [|c [|m1 [|m2 [|]]]]]]]; try discriminate.
  - destruct (byte_eqb z x5a); [|discriminate]. intros H. injection H as <-. lia.
  - destruct (undigits [h1; h2] 0) as [h|] eqn:Eh; [|discriminate]. destruct (undigits [m1; m2] 0) as [m|] eqn:Em; [|discriminate].
    apply undigits_bound in Eh; [|lia]. apply undigits_bound in Em; [|lia].
    destruct (byte_eqb c x3a); [|discriminate]. cbn [negb orb]. destruct (Z.leb_spec 1440 (h * 60 + m)); [discriminate|].
    destruct (byte_eqb z x2b); [intros H0; injection H0 as <-; lia|]. destruct (byte_eqb z x2d); [|discriminate]. intros H0; injection H0 as <-; lia.
Qed.
Lemma time_parse_wf l t : time_parse l = Some t -> time_wf t.
Proof.
  unfold time_parse. do 19 (destruct l as [|? l]; [discriminate|]).
  repeat match goal with |- context [match undigits ?x ?a with _ => _ end] => destruct (undigits x a); [|discriminate] end.
  destruct (frac_parse l) as [[ns zone]|] eqn:Ef; [|discriminate]. destruct (zone_parse zone) as [off|] eqn:Ez; [|discriminate].
  match goal with |- (if ?c then _ else _) = _ -> _ => destruct c; [|discriminate] end. intros H. injection H as <-.
  apply frac_parse_wf in Ef. apply zone_parse_wf in Ez. split; assumption.
Qed.
