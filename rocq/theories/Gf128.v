(** GF(2^128) as SP 800-38D multiplies it (Gcm.gf_mul) is a field: the product is bilinear,
    commutative and associative, has a unit and no zero divisors. *)
From Coq Require Import ZifyN ZifyNat.
From Verif Require Import Bytes Gcm.
Local Open Scope N_scope.

Notation "a ⊕ b" := (N.lxor a b) (at level 50, left associativity).
Notation "a ⊗ b" := (gf_mul a b) (at level 40, left associativity).

Definition small (y : N) : Prop := y < 2 ^ 128.
(** The unit: the first bit of the block. *)
Definition gf_one : N := 2 ^ 127.

Definition xt (v : N) : N := if N.odd v then N.div2 v ⊕ N.shiftl 225 120 else N.div2 v.
Definition sc (b : bool) (v : N) : N := if b then v else 0.
Fixpoint gm (bits : nat) (x v : N) : N :=
  match bits with
  | O => 0
  | S b => sc (N.testbit x (N.of_nat b)) v ⊕ gm b x (xt v)
  end.

(** ** Small numbers *)
Lemma small_bits y : small y <-> forall i, 128 <= i -> N.testbit y i = false.
Proof.
  unfold small. split.
  - intros H i Hi. destruct (N.eq_dec y 0) as [->|Hn]; [apply N.bits_0|].
    apply N.bits_above_log2. apply N.log2_lt_pow2 in H; lia.
  - intros H. destruct (N.eq_dec y 0) as [->|Hn]; [reflexivity|].
    apply N.log2_lt_pow2; [lia|].
    destruct (N.lt_ge_cases (N.log2 y) 128) as [|Hge]; [assumption|].
    specialize (H _ Hge). rewrite N.bit_log2 in H by assumption. discriminate.
Qed.
Lemma small_0 : small 0.
Proof. reflexivity. Qed.
Lemma small_lxor a b : small a -> small b -> small (a ⊕ b).
Proof.
  rewrite !small_bits. intros Ha Hb i Hi. rewrite N.lxor_spec, Ha, Hb by assumption. reflexivity.
Qed.
Lemma small_one : small gf_one.
Proof. reflexivity. Qed.
Lemma small_sc b v : small v -> small (sc b v).
Proof. destruct b; [auto|]. intros _. exact small_0. Qed.
Lemma small_xt v : small v -> small (xt v).
Proof.
  intros H. assert (Hd : small (N.div2 v)) by (unfold small in *; rewrite N.div2_div; apply N.div_lt_upper_bound; lia).
  unfold xt. destruct (N.odd v); [|assumption]. apply small_lxor; [assumption|reflexivity].
Qed.
Lemma small_gm n : forall x v, small v -> small (gm n x v).
Proof.
  induction n as [|n IH]; intros x v H; [exact small_0|]. cbn [gm].
  apply small_lxor; [now apply small_sc|]. apply IH. now apply small_xt.
Qed.

(** ** The loop *)
Lemma loop_gm n : forall x z v, gf_mul_loop n x z v = z ⊕ gm n x v.
Proof.
  induction n as [|n IH]; intros x z v; [now rewrite N.lxor_0_r|].
  cbn [gf_mul_loop gm]. rewrite IH. fold (xt v). destruct (N.testbit x (N.of_nat n)); cbn [sc].
  - now rewrite N.lxor_assoc.
  - now rewrite N.lxor_0_l.
Qed.
Lemma mul_gm x y : x ⊗ y = gm 128 x y.
Proof. unfold gf_mul. now rewrite loop_gm, N.lxor_0_l. Qed.
Lemma small_mul x y : small y -> small (x ⊗ y).
Proof. rewrite mul_gm. apply small_gm. Qed.

(** Exclusive or, rearranged. *)
Lemma lxor_swap a b c d : (a ⊕ b) ⊕ (c ⊕ d) = (a ⊕ c) ⊕ (b ⊕ d).
Proof. rewrite !N.lxor_assoc. f_equal. rewrite <- !N.lxor_assoc. f_equal. apply N.lxor_comm. Qed.

Lemma xt_lin a b : xt (a ⊕ b) = xt a ⊕ xt b.
Proof.
  unfold xt. rewrite <- !N.bit0_odd, N.lxor_spec, !N.div2_spec, N.shiftr_lxor, !N.bit0_odd.
  destruct (N.odd a), (N.odd b); cbn [xorb].
  - rewrite lxor_swap, N.lxor_nilpotent. now rewrite N.lxor_0_r.
  - rewrite !N.lxor_assoc. f_equal. apply N.lxor_comm.
  - now rewrite !N.lxor_assoc.
  - reflexivity.
Qed.
Lemma sc_lin b u v : sc b (u ⊕ v) = sc b u ⊕ sc b v.
Proof. destruct b; reflexivity. Qed.
Lemma sc_xor b c v : sc (xorb b c) v = sc b v ⊕ sc c v.
Proof.
  destruct b, c; cbn [sc xorb].
  - now rewrite N.lxor_nilpotent.
  - now rewrite N.lxor_0_r.
  - now rewrite N.lxor_0_l.
  - reflexivity.
Qed.
Lemma gm_lin n : forall x u v, gm n x (u ⊕ v) = gm n x u ⊕ gm n x v.
Proof.
  induction n as [|n IH]; intros x u v; [reflexivity|]. cbn [gm].
  now rewrite sc_lin, xt_lin, IH, lxor_swap.
Qed.
Lemma gm_lin_l n : forall x y v, gm n (x ⊕ y) v = gm n x v ⊕ gm n y v.
Proof.
  induction n as [|n IH]; intros x y v; [reflexivity|]. cbn [gm].
  now rewrite N.lxor_spec, sc_xor, IH, lxor_swap.
Qed.
Lemma mul_lin_r x u v : x ⊗ (u ⊕ v) = x ⊗ u ⊕ x ⊗ v.
Proof. rewrite !mul_gm. apply gm_lin. Qed.
Lemma mul_lin_l x y v : (x ⊕ y) ⊗ v = x ⊗ v ⊕ y ⊗ v.
Proof. rewrite !mul_gm. apply gm_lin_l. Qed.
Lemma mul_0_l v : 0 ⊗ v = 0.
Proof. rewrite <- (N.lxor_nilpotent 0) at 1. rewrite mul_lin_l. apply N.lxor_nilpotent. Qed.
Lemma mul_0_r v : v ⊗ 0 = 0.
Proof. rewrite <- (N.lxor_nilpotent 0) at 1. rewrite mul_lin_r. apply N.lxor_nilpotent. Qed.

Local Opaque gf_mul.

(** ** Linear maps that commute with [xt] *)
Section Lin.
  Context (F : N -> N) (Fs : forall y, small y -> small (F y))
          (Fl : forall a b, small a -> small b -> F (a ⊕ b) = F a ⊕ F b).
  Lemma F0 : F 0 = 0.
  Proof using Fl. rewrite <- (N.lxor_nilpotent 0) at 1. rewrite Fl by exact small_0. apply N.lxor_nilpotent. Qed.
  Lemma Fsc b v : F (sc b v) = sc b (F v).
  Proof using Fl. destruct b; [reflexivity|exact F0]. Qed.
  Lemma Fgm (Fx : forall y, small y -> F (xt y) = xt (F y)) n :
    forall x v, small v -> F (gm n x v) = gm n x (F v).
  Proof using Fl.
    induction n as [|n IH]; intros x v H; [exact F0|]. cbn [gm].
    rewrite Fl by (try apply small_sc; try apply small_gm; try apply small_xt; assumption).
    rewrite Fsc, IH by now apply small_xt. now rewrite Fx.
  Qed.
End Lin.

Lemma pow2_step b y : sc (N.testbit y b) (2 ^ b) ⊕ y mod 2 ^ b = y mod 2 ^ (N.succ b).
Proof.
  apply N.bits_inj. intros i. rewrite N.lxor_spec.
  destruct (N.lt_trichotomy i b) as [H|[->|H]].
  - rewrite !N.mod_pow2_bits_low by lia.
    replace (N.testbit (sc (N.testbit y b) (2 ^ b)) i) with false; [now rewrite Bool.xorb_false_l|].
    destruct (N.testbit y b); cbn [sc]; [now rewrite N.pow2_bits_false by lia|now rewrite N.bits_0].
  - rewrite N.mod_pow2_bits_high, (N.mod_pow2_bits_low _ (N.succ b)) by lia. rewrite Bool.xorb_false_r.
    destruct (N.testbit y b); cbn [sc]; [now rewrite N.pow2_bits_true|now rewrite N.bits_0].
  - rewrite !N.mod_pow2_bits_high by lia. rewrite Bool.xorb_false_r.
    destruct (N.testbit y b); cbn [sc]; [now rewrite N.pow2_bits_false by lia|now rewrite N.bits_0].
Qed.
Lemma xt_pow2 b : xt (2 ^ N.succ b) = 2 ^ b.
Proof.
  unfold xt. rewrite N.pow_succ_r'. 
  rewrite N.odd_mul. cbn [N.odd]. rewrite Bool.andb_false_l. rewrite N.div2_div.
  rewrite N.mul_comm. apply N.div_mul. lia.
Qed.
Lemma gm_pow2 b : forall y, gm (S b) y (2 ^ N.of_nat b) = y mod 2 ^ N.of_nat (S b).
Proof.
  induction b as [|b IH]; intros y.
  - cbn [gm]. rewrite N.lxor_0_r. change (2 ^ N.of_nat 0) with 1. change (2 ^ N.of_nat 1) with 2.
    rewrite <- N.bit0_mod. change (N.of_nat 0) with 0. destruct (N.testbit y 0); reflexivity.
  - change (gm (S (S b)) y (2 ^ N.of_nat (S b)))
      with (sc (N.testbit y (N.of_nat (S b))) (2 ^ N.of_nat (S b)) ⊕ gm (S b) y (xt (2 ^ N.of_nat (S b)))).
    rewrite (Nat2N.inj_succ b) at 3. rewrite xt_pow2, IH.
    rewrite (Nat2N.inj_succ (S b)). apply pow2_step.
Qed.
Lemma mul_one_r y : small y -> y ⊗ gf_one = y.
Proof.
  intros H. rewrite mul_gm. unfold gf_one. change 127 with (N.of_nat 127). rewrite gm_pow2.
  apply N.mod_small. exact H.
Qed.

Lemma mul_xt_r a y : a ⊗ xt y = xt (a ⊗ y).
Proof.
  rewrite !mul_gm. symmetry. revert y. generalize 128%nat as n. induction n as [|n IH]; intros y; [reflexivity|].
  cbn [gm]. rewrite xt_lin, IH. f_equal. destruct (N.testbit a (N.of_nat n)); reflexivity.
Qed.
Lemma lin_one F y : (forall a b, small a -> small b -> F (a ⊕ b) = F a ⊕ F b) ->
  (forall y, small y -> F (xt y) = xt (F y)) -> small y -> F y = y ⊗ F gf_one.
Proof.
  intros Fl Fx H. rewrite <- (mul_one_r y H) at 1. rewrite !mul_gm.
  apply Fgm; [assumption|assumption|exact small_one].
Qed.

Lemma mul_comm a b : small a -> small b -> a ⊗ b = b ⊗ a.
Proof.
  intros Ha Hb. rewrite (lin_one (fun y => a ⊗ y) b); [|intros; apply mul_lin_r|intros; apply mul_xt_r|assumption].
  now rewrite mul_one_r.
Qed.
Lemma mul_assoc a b c : small a -> small b -> small c -> a ⊗ (b ⊗ c) = a ⊗ b ⊗ c.
Proof.
  intros Ha Hb Hc. rewrite (lin_one (fun y => a ⊗ (b ⊗ y)) c).
  - rewrite mul_one_r by assumption. apply mul_comm; [assumption|now apply small_mul].
  - intros; now rewrite !mul_lin_r.
  - intros; now rewrite !mul_xt_r.
  - assumption.
Qed.
Lemma mul_one_l a : small a -> gf_one ⊗ a = a.
Proof. intros H. rewrite mul_comm; [now apply mul_one_r|exact small_one|assumption]. Qed.
Lemma mul_swap a b c d : small a -> small b -> small c -> small d ->
  (a ⊗ b) ⊗ (c ⊗ d) = (a ⊗ c) ⊗ (b ⊗ d).
Proof.
  intros Ha Hb Hc Hd. rewrite <- !mul_assoc by (try apply small_mul; assumption). f_equal.
  rewrite !mul_assoc by assumption. f_equal. now apply mul_comm.
Qed.

(** ** Squaring *)
Definition sq (y : N) : N := y ⊗ y.
Fixpoint sqn (n : nat) (y : N) : N := match n with O => y | S n' => sq (sqn n' y) end.
Lemma small_sqn n : forall y, small y -> small (sqn n y).
Proof. induction n as [|n IH]; intros y H; [assumption|]. cbn [sqn]. apply small_mul. auto. Qed.
Lemma sq_lin a b : small a -> small b -> sq (a ⊕ b) = sq a ⊕ sq b.
Proof.
  intros Ha Hb. unfold sq. rewrite mul_lin_l, !mul_lin_r, (mul_comm b a) by assumption.
  rewrite N.lxor_assoc. f_equal. rewrite <- N.lxor_assoc, N.lxor_nilpotent. apply N.lxor_0_l.
Qed.
Lemma sqn_lin n : forall a b, small a -> small b -> sqn n (a ⊕ b) = sqn n a ⊕ sqn n b.
Proof.
  induction n as [|n IH]; intros a b Ha Hb; [reflexivity|]. cbn [sqn].
  rewrite IH by assumption. apply sq_lin; now apply small_sqn.
Qed.
Lemma sq_mul a b : small a -> small b -> sq (a ⊗ b) = sq a ⊗ sq b.
Proof. intros Ha Hb. unfold sq. now apply mul_swap. Qed.
Lemma sqn_mul n : forall a b, small a -> small b -> sqn n (a ⊗ b) = sqn n a ⊗ sqn n b.
Proof.
  induction n as [|n IH]; intros a b Ha Hb; [reflexivity|]. cbn [sqn].
  rewrite IH by assumption. apply sq_mul; now apply small_sqn.
Qed.
Lemma sqn_one n : sqn n gf_one = gf_one.
Proof. induction n as [|n IH]; [reflexivity|]. cbn [sqn]. rewrite IH. apply mul_one_r. exact small_one. Qed.
Lemma xt_mul y : small y -> xt y = xt gf_one ⊗ y.
Proof.
  intros H. rewrite mul_comm; [|apply small_xt; exact small_one|assumption].
  rewrite mul_xt_r. now rewrite mul_one_r.
Qed.
(** x^(2^128) = x, the only fact about the modulus used besides [unsq_ok]. *)
Lemma sqn_x : sqn 128 (xt gf_one) = xt gf_one.
Proof. vm_compute. reflexivity. Qed.
Lemma sqn_id y : small y -> sqn 128 y = y.
Proof.
  intros H. rewrite (lin_one (sqn 128) y).
  - rewrite sqn_one. now apply mul_one_r.
  - intros. now apply sqn_lin.
  - intros z Hz. rewrite (xt_mul z) by assumption. rewrite sqn_mul, sqn_x; [|apply small_xt; exact small_one|assumption].
    symmetry. apply xt_mul. now apply small_sqn.
  - assumption.
Qed.

(** ** The fixed points of squaring are 0 and 1 *)
(** Images of the 128 basis vectors under a linear map undoing [y -> y^2 + y] up to a multiple of
    one; found by Gaussian elimination. *)
Definition unsq_table : list N :=
  [0;
   6161591008139076202154902373133594561;
   71430717218983613641036104277415506289;
   87518597585245962833849474628053070758;
   72921817864677867521778898634038080609;
   163309321578052146879237778733101511783;
   126814247099887467207929949960147586332;
   133487668004820722767044853458355047125;
   108887185710678174598840578861931466132;
   72978216601350599296199603180564021825;
   126976600203468727039316187211004055892;
   49689517519420395515082114066310337331;
   12764899024296983899235621676887115841;
   59792954277794326371429463258526948146;
   275464514806027128612938827324864;
   33882886127255646541338116557250298163;
   133385434108064708788808215410435911893;
   153238470225796905537047657204766862374;
   127777348636302309636952298273557535380;
   58594334107495617071392172125656399538;
   5725366257701666555538562805218717057;
   159324042485362592547018579093184240551;
   149021274876537960721224429182834492454;
   94333773739946854309780815578084996199;
   161752945482599484730126084874801441767;
   115575792119390728221592460023876181333;
   133436244703473040169882794575366898389;
   34751610155981195849944733847405496627;
   100972845268357601278728964017462078439;
   44935323831972008745566419208193456946;
   132003651752985294974180122299820886164;
   45594221442569777339127844318073854322;
   100983558286137050684044238585428660711;
   140308235276559149970208740923126577813;
   92325303522414418149753570460923091879;
   26944628100264108509229864938392397555;
   81071795988965022717357904530596407232;
   58275656592719279154056000246173111091;
   51613027339492204128265575524803459891;
   142140898696765075202304690604976981845;
   53639910565545342273528145980335791795;
   4726979706490419237355323591502507968;
   161542955870533464563010084267448332775;
   65334779303751560239471195525024588352;
   122557457634345817322758110469731963540;
   79569572988994598121356082874814992321;
   9537274821874957483351388617584152641;
   109427184872331881977228478262674814292;
   96504253903287235160744645914913229863;
   35809052500294759256374056413191545715;
   63089105448741488643398279942380763954;
   84108490886122099842324906724524496768;
   161537358671016203777973217828391545831;
   49921000058860506912943830473554996979;
   113870918609522322281985099445019275925;
   45994406431766860863727072382817147250;
   6116654749483988959971426010360459777;
   88394181539591460295416373139500891046;
   93226277353508642900164249188457535015;
   123506241354959402090274531190302866772;
   72992884249465865451566362034747193217;
   123492369307601207700488716387690115284;
   67288019353279926038130604499846823936;
   96617416833907240315124182200439430055;
   6161591008139076220601646446843146177;
   87518597585245962796955986480633967526;
   163309321578052146805450802438263305319;
   133487668004820722619470900868678634197;
   72978216601350599591347508359916847681;
   49689517519420396105377924425015989043;
   59792954277794325190837842541115644722;
   33882886127255648902521357992072905011;
   153238470225796900814681174335121648678;
   58594334107495626516125137864946826930;
   159324042485362573657552647614603385767;
   94333773739946892088712678535246705767;
   115575792119390803779456185938199600469;
   34751610155981346965672185676052334899;
   44935323831971706514111515550899780402;
   45594221442570381802037651632661207410;
   140308235276560358896028355552301283989;
   26944628100266526360869094196741809907;
   58275656592714443450777541729474286387;
   142140898696755403795747773571579332437;
   4726979706471076424241489524707209152;
   65334779303712874613243527391433990720;
   79569572989071969373811419141996187585;
   109427184872177139472317805728312423764;
   35809052500604244266195401481916326771;
   84108490886741069861967596861974058880;
   49921000057622566873658450198655872755;
   45994406429290980785156311833018898802;
   88394181544543220452557894239097387942;
   123506241345055881775991488991109872980;
   123492369287794167071922631989304127700;
   96617416873521321572256350997211405223;
   87518597506017800282691648887090017190;
   133487668163277047647999576055766534869;
   49689517202507746048320574050840187699;
   33882886761080949016636058740424507699;
   58594332839845026287895736368243621554;
   94333771204645691632253875541840295015;
   34751615226583747878589791662865156403;
   45594211301365579976202439659035564402;
   26944648382676130012539518143993095923;
   142140858131936196492406925677076760405;
   65334698174074460006561831602428846656;
   109427022612900310258954414150302135636;
   84108166368187411435240813705953482624;
   45993757392183663931702745520977746290;
   123504943270841248069084356367027567956;
   96614820725092054158442085749046795175;
   133492860460135582475628106552095754965;
   33893271354798018671893119733082947891;
   94354540392079830942767997527157175399;
   45552672926497301355174195688401803634;
   142223934881672753734463413618344281941;
   109593176112373424743067390032837178708;
   46326064391129892899928697286047832434;
   95950206727199596221990182218906622887;
   32564043359013102798989312672802603315;
   42894216934927469609366581567841114482;
   114910088095513088234682618273958557012;
   85316382760920269238759725736663866279;
   64161864867486123575827494532326627698;
   127851678626037577171681551665634892711;
   42781086895802961305837899807692839847;
   22349210433241643211303706255459310228].
Fixpoint unsq_from (i : N) (t : list N) (y : N) : N :=
  match t with
  | [] => 0
  | v :: t' => sc (N.testbit y i) v ⊕ unsq_from (i + 1) t' y
  end.
Definition unsq (y : N) : N := unsq_from 0 unsq_table y.
Lemma unsq_lin a b : unsq (a ⊕ b) = unsq a ⊕ unsq b.
Proof.
  unfold unsq. generalize 0 as i. generalize unsq_table as t.
  induction t as [|v t IH]; intros i; [reflexivity|]. cbn [unsq_from].
  now rewrite N.lxor_spec, sc_xor, IH, lxor_swap.
Qed.
Definition resid (y : N) : N := unsq (sq y ⊕ y) ⊕ y.
Definition bit_like (v : N) : bool := (v =? 0) || (v =? gf_one).
Fixpoint powers (n : nat) : list N := match n with O => [] | S k => 2 ^ N.of_nat k :: powers k end.
Lemma resid_ok : forallb (fun v => bit_like (resid v)) (powers 128) = true.
Proof. vm_compute. reflexivity. Qed.
Lemma resid_lin a b : small a -> small b -> resid (a ⊕ b) = resid a ⊕ resid b.
Proof.
  intros Ha Hb. unfold resid. rewrite sq_lin by assumption.
  rewrite (lxor_swap (sq a) (sq b) a b), unsq_lin. apply lxor_swap.
Qed.
Lemma bit_like_xor a b : bit_like a = true -> bit_like b = true -> bit_like (a ⊕ b) = true.
Proof.
  unfold bit_like. rewrite !Bool.orb_true_iff, !N.eqb_eq.
  intros [-> | ->] [-> | ->]; rewrite ?N.lxor_0_l, ?N.lxor_0_r, ?N.lxor_nilpotent; auto.
Qed.
Lemma resid_powers n : (n <= 128)%nat -> forallb (fun v => bit_like (resid v)) (powers n) = true.
Proof.
  intros Hn. assert (H := resid_ok). revert H. 
  replace 128%nat with ((128 - n) + n)%nat by lia. generalize (128 - n)%nat as k.
  induction k as [|k IH]; [auto|]. intros H.
  change (powers (S k + n)) with (2 ^ N.of_nat (k + n) :: powers (k + n)) in H.
  change (forallb ?f (?a :: ?l)) with (f a && forallb f l)%bool in H.
  apply Bool.andb_true_iff in H. destruct H as [_ H]. auto.
Qed.
Lemma resid_bit n : (n <= 128)%nat -> forall y, y < 2 ^ N.of_nat n -> bit_like (resid y) = true.
Proof.
  intros Hn. assert (Hp := resid_powers n Hn). revert Hn Hp. induction n as [|n IH]; intros Hn Hp y Hy.
  - change (2 ^ N.of_nat 0) with 1 in Hy. replace y with 0 by lia. reflexivity.
  - change (powers (S n)) with (2 ^ N.of_nat n :: powers n) in Hp.
    change (forallb ?f (?a :: ?l)) with (f a && forallb f l)%bool in Hp.
    apply Bool.andb_true_iff in Hp. destruct Hp as [Hp1 Hp2].
    assert (E : y = sc (N.testbit y (N.of_nat n)) (2 ^ N.of_nat n) ⊕ y mod 2 ^ N.of_nat n).
    { rewrite pow2_step, <- Nat2N.inj_succ. symmetry. now apply N.mod_small. }
    assert (L : forall m, (m <= 128)%nat -> 2 ^ N.of_nat m <= 2 ^ 128) by (intros m Hm; apply N.pow_le_mono_r; lia).
    assert (Hmod : y mod 2 ^ N.of_nat n < 2 ^ N.of_nat n) by (apply N.mod_lt; apply N.pow_nonzero; lia).
    rewrite E. rewrite resid_lin.
    + apply bit_like_xor; [|apply IH; [lia|assumption|assumption]].
      destruct (N.testbit y (N.of_nat n)); [exact Hp1|reflexivity].
    + apply small_sc. unfold small. apply N.pow_lt_mono_r; lia.
    + unfold small. apply N.lt_le_trans with (2 ^ N.of_nat n); [assumption|]. apply L. lia.
Qed.
Lemma sq_fixed e : small e -> sq e = e -> e = 0 \/ e = gf_one.
Proof.
  intros He Hf. assert (H := resid_bit 128 (le_n _) e He). unfold resid in H. rewrite Hf, N.lxor_nilpotent in H.
  replace (unsq 0 ⊕ e) with e in H.
  - unfold bit_like in H. apply Bool.orb_true_iff in H. rewrite !N.eqb_eq in H. exact H.
  - replace (unsq 0) with 0 by reflexivity. now rewrite N.lxor_0_l.
Qed.

(** ** Inverses *)
(** The product of y, y^2, y^4, ... (n factors): y^(2^n - 1). *)
Fixpoint sqprod (n : nat) (y : N) : N := match n with O => gf_one | S k => sqprod k y ⊗ sqn k y end.
Lemma small_sqprod n y : small y -> small (sqprod n y).
Proof. induction n as [|n IH]; intros H; [exact small_one|]. cbn [sqprod]. apply small_mul. now apply small_sqn. Qed.
Lemma sqprod_mul n y : small y -> sqprod n y ⊗ y = sqn n y.
Proof.
  intros H. induction n as [|n IH]; [now apply mul_one_l|]. cbn [sqprod sqn].
  rewrite <- mul_assoc by (try apply small_sqprod; try apply small_sqn; assumption).
  rewrite (mul_comm (sqn n y) y), mul_assoc, IH by (try apply small_sqprod; try apply small_sqn; assumption). reflexivity.
Qed.
Lemma sq_sqprod n y : small y -> sq (sqprod n y) ⊗ y = sqprod (S n) y.
Proof.
  intros H. induction n as [|n IH].
  - cbn [sqprod sqn]. unfold sq. now rewrite mul_one_r by exact small_one.
  - change (sqprod (S n) y) with (sqprod n y ⊗ sqn n y) at 1.
    assert (S1 : small (sqprod n y)) by now apply small_sqprod.
    assert (S2 : small (sqn n y)) by now apply small_sqn.
    rewrite sq_mul by assumption.
    assert (S3 : small (sq (sqprod n y))) by now apply small_mul.
    assert (S4 : small (sq (sqn n y))) by now apply small_mul.
    rewrite <- mul_assoc, (mul_comm (sq (sqn n y)) y), mul_assoc, IH by assumption. reflexivity.
Qed.
Lemma norm_fixed y : small y -> sq (sqprod 128 y) = sqprod 128 y.
Proof.
  intros H. set (e := sqprod 128 y).
  assert (He : small e) by now apply small_sqprod.
  (* e y = y, and e^2 y = y^(2^129 - 1) = e y: multiply by y^(2^128 - 2) *)
  assert (Hey : e ⊗ y = y) by (unfold e; rewrite sqprod_mul by assumption; now apply sqn_id).
  (* e^2 = e * y^(2^128-1) = (e * y) * y^(2^128-2) *)
  assert (Hk : forall n, e ⊗ sqn n y = sqn n y).
  { assert (Hs : forall n, small (sqn n y)) by (intros; now apply small_sqn).
    induction n as [|n IH]; [exact Hey|]. cbn [sqn]. unfold sq at 1. rewrite mul_assoc, IH by auto. reflexivity. }
  assert (Hp : forall n, e ⊗ sqprod (S n) y = sqprod (S n) y).
  { intros n. cbn [sqprod]. rewrite (mul_comm (sqprod n y) (sqn n y)) by (try apply small_sqprod; try apply small_sqn; assumption).
    rewrite mul_assoc, Hk by (try apply small_sqprod; try apply small_sqn; assumption). reflexivity. }
  exact (Hp 127%nat).
Qed.
Lemma mul_inv y : small y -> y <> 0 -> exists z, small z /\ z ⊗ y = gf_one.
Proof.
  intros H Hn. destruct (sq_fixed (sqprod 128 y)) as [E|E].
  - now apply small_sqprod.
  - now apply norm_fixed.
  - exfalso. apply Hn. rewrite <- (sqn_id y H). rewrite <- sqprod_mul by assumption. rewrite E. apply mul_0_l.
  - exists (sq (sqprod 127 y)). split; [apply small_mul; now apply small_sqprod|].
    rewrite sq_sqprod by assumption. exact E.
Qed.
Lemma mul_eq_0 a b : small a -> small b -> a ⊗ b = 0 -> a = 0 \/ b = 0.
Proof.
  intros Ha Hb H. destruct (N.eq_dec a 0) as [|Hn]; [now left|]. right.
  destruct (mul_inv a Ha Hn) as (z & Hz & E).
  rewrite <- (mul_one_l b Hb), <- E, <- mul_assoc, H by assumption. apply mul_0_r.
Qed.
Lemma lxor_eq_0 a b : a ⊕ b = 0 -> a = b.
Proof. apply N.lxor_eq. Qed.
Lemma mul_cancel a b h : small a -> small b -> small h -> h <> 0 -> a ⊗ h = b ⊗ h -> a = b.
Proof.
  intros Ha Hb Hh Hn E. apply lxor_eq_0. destruct (mul_eq_0 (a ⊕ b) h) as [|]; auto; [now apply small_lxor| |contradiction].
  rewrite mul_lin_l, E. apply N.lxor_nilpotent.
Qed.

(** ** Polynomials: at most as many roots as the degree *)
Definition horner (h : N) (cs : list N) : N := fold_left (fun acc c => acc ⊗ h ⊕ c) cs 0.
Lemma horner_snoc h cs c : horner h (cs ++ [c]) = horner h cs ⊗ h ⊕ c.
Proof. unfold horner. now rewrite fold_left_app. Qed.
Lemma small_horner h cs : small h -> Forall small cs -> small (horner h cs).
Proof.
  intros Hh. induction cs as [|c cs IH] using rev_ind; intros H; [exact small_0|].
  rewrite horner_snoc. apply Forall_app in H. destruct H as [H1 H2].
  apply small_lxor; [now apply small_mul|]. now inversion H2.
Qed.
(** Synthetic division by (X - r). *)
Lemma division r cs c : small r -> Forall small (cs ++ [c]) ->
  exists q, length q = length cs /\ Forall small q /\
    (forall h, small h -> horner h (cs ++ [c]) = (h ⊕ r) ⊗ horner h q ⊕ horner r (cs ++ [c])) /\
    (Forall (eq 0) q -> Forall (eq 0) cs).
Proof.
  intros Hr. revert c. induction cs as [|c' cs IH] using rev_ind; intros c Hs.
  - exists []. repeat split; auto. intros h Hh. rewrite !horner_snoc. cbn [horner fold_left].
    now rewrite mul_0_r, !mul_0_l, !N.lxor_0_l.
  - apply Forall_app in Hs. destruct Hs as [Hs Hc]. destruct (IH c' Hs) as (q & Lq & Sq & Dq & Zq).
    assert (Sa : small (horner r (cs ++ [c']))) by now apply small_horner.
    exists (q ++ [horner r (cs ++ [c'])]). split; [|split; [|split]].
    + rewrite !app_length. cbn. lia.
    + apply Forall_app. split; [assumption|]. constructor; [assumption|constructor].
    + intros h Hh. rewrite (horner_snoc h (cs ++ [c'])), (horner_snoc r (cs ++ [c'])), (Dq h Hh).
      rewrite (horner_snoc h q). set (a := horner r (cs ++ [c'])) in *. set (Q := horner h q).
      assert (SQ : small Q) by now apply small_horner.
      rewrite (mul_lin_l ((h ⊕ r) ⊗ Q) a h), (mul_lin_r (h ⊕ r)), (mul_assoc (h ⊕ r) Q h) by (try apply small_lxor; assumption).
      rewrite (mul_lin_l h r a). rewrite (mul_comm h a), (mul_comm r a) by assumption.
      rewrite !N.lxor_assoc. f_equal. f_equal. rewrite <- N.lxor_assoc, N.lxor_nilpotent. now rewrite N.lxor_0_l.
    + intros H. apply Forall_app in H. destruct H as [H1 H2]. assert (Z := Zq H1).
      apply Forall_app. split; [assumption|]. constructor; [|constructor].
      inversion H2 as [|? ? H3 _]; subst. rewrite horner_snoc in H3.
      assert (E : horner r cs = 0).
      { clear - Z. induction cs as [|c cs IH] using rev_ind; [reflexivity|]. apply Forall_app in Z. destruct Z as [Z1 Z2].
        rewrite horner_snoc, IH, mul_0_l by assumption. inversion Z2; subst. reflexivity. }
      rewrite E, mul_0_l, N.lxor_0_l in H3. exact H3.
Qed.
Lemma roots_bound n : forall cs, (length cs <= n)%nat -> Forall small cs -> ~ Forall (eq 0) cs ->
  forall hs, NoDup hs -> (forall h, In h hs -> small h /\ horner h cs = 0) -> (length hs < length cs)%nat.
Proof.
  induction n as [|n IH]; intros cs Hl Hs Hz hs Hd Hr.
  - exfalso. apply Hz. destruct cs; [constructor|cbn in Hl; lia].
  - destruct cs as [|c cs' _] using rev_ind; [exfalso; apply Hz; constructor|].
    rewrite app_length in *. cbn [length] in *.
    destruct hs as [|r hs]; [cbn; lia|].
    destruct (Hr r (or_introl eq_refl)) as [Sr Er].
    destruct (division r cs' c Sr Hs) as (q & Lq & Sq & Dq & Zq).
    assert (Hq : ~ Forall (eq 0) q).
    { intros Z. assert (Z' := Zq Z). apply Hz. apply Forall_app. split; [assumption|].
      constructor; [|constructor]. rewrite horner_snoc in Er.
      assert (E : horner r cs' = 0).
      { clear - Z'. induction cs' as [|x cs IH] using rev_ind; [reflexivity|]. apply Forall_app in Z'. destruct Z' as [Z1 Z2].
        rewrite horner_snoc, IH, mul_0_l by assumption. inversion Z2; subst. reflexivity. }
      rewrite E, mul_0_l, N.lxor_0_l in Er. now symmetry. }
    inversion Hd as [|? ? Hni Hd']; subst.
    assert (L : (length hs < length q)%nat).
    { apply IH; auto; [lia|]. intros h Hh. destruct (Hr h (or_intror Hh)) as [Sh Eh]. split; [assumption|].
      rewrite Dq, Er, N.lxor_0_r in Eh by assumption.
      destruct (mul_eq_0 (h ⊕ r) (horner h q)) as [Z|Z]; auto.
      - now apply small_lxor.
      - now apply small_horner.
      - apply lxor_eq_0 in Z. subst h. contradiction. }
    cbn [length]. lia.
Qed.
