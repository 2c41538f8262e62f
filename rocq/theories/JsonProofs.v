(** JSON: parsing inverts printing up to the replacement of invalid UTF-8. *)
From Coq Require Import ZifyN ZifyNat Wf_nat.
From Verif Require Import Bytes Base64 Base64Proofs Json.
Local Open Scope bool_scope.
Local Open Scope N_scope.
Ltac Zify.zify_post_hook ::= Z.to_euclidean_division_equations.

(** ** UTF-8 *)
Lemma runes_unfold s : runes s =
  match s with
  | [] => []
  | b0 :: t0 =>
      if bN b0 <? 128 then RAscii b0 :: runes t0
      else
        match t0 with
        | [] => [RBad b0]
        | b1 :: t1 =>
            if inr 194 223 b0 && inr 128 191 b1 then RMulti [b0; b1] :: runes t1
            else
              match t1 with
              | [] => RBad b0 :: runes t0
              | b2 :: t2 =>
                  if ((inr 224 224 b0 && inr 160 191 b1) || (inr 225 236 b0 && inr 128 191 b1)
                      || (inr 237 237 b0 && inr 128 159 b1) || (inr 238 239 b0 && inr 128 191 b1))
                     && inr 128 191 b2
                  then RMulti [b0; b1; b2] :: runes t2
                  else
                    match t2 with
                    | [] => RBad b0 :: runes t0
                    | b3 :: t3 =>
                        if ((inr 240 240 b0 && inr 144 191 b1) || (inr 241 243 b0 && inr 128 191 b1)
                            || (inr 244 244 b0 && inr 128 143 b1))
                           && inr 128 191 b2 && inr 128 191 b3
                        then RMulti [b0; b1; b2; b3] :: runes t3
                        else RBad b0 :: runes t0
                    end
              end
        end
  end.
Proof. destruct s as [|b0 [|b1 [|b2 [|b3 t3]]]]; reflexivity. Qed.

Lemma inr_true lo hi b : inr lo hi b = true <-> lo <= bN b /\ bN b <= hi.
Proof. unfold inr. rewrite Bool.andb_true_iff, N.leb_le, N.leb_le. reflexivity. Qed.

(** Well-formed multi-byte characters (Unicode 15, table 3-7). *)
Definition multi_ok (c : bytes) : bool :=
  match c with
  | [b0; b1] => inr 194 223 b0 && inr 128 191 b1
  | [b0; b1; b2] =>
      ((inr 224 224 b0 && inr 160 191 b1) || (inr 225 236 b0 && inr 128 191 b1)
       || (inr 237 237 b0 && inr 128 159 b1) || (inr 238 239 b0 && inr 128 191 b1)) && inr 128 191 b2
  | [b0; b1; b2; b3] =>
      ((inr 240 240 b0 && inr 144 191 b1) || (inr 241 243 b0 && inr 128 191 b1)
       || (inr 244 244 b0 && inr 128 143 b1)) && inr 128 191 b2 && inr 128 191 b3
  | _ => false
  end.
Definition rune_wf (r : rune) : Prop :=
  match r with
  | RAscii b => bN b < 128
  | RMulti c => multi_ok c = true
  | RBad b => 128 <= bN b
  end.
Definition rune_raw (r : rune) : bytes :=
  match r with RAscii b => [b] | RMulti c => c | RBad b => [b] end.

Lemma runes_spec s : concat (map rune_raw (runes s)) = s /\ Forall rune_wf (runes s).
Proof.
  induction s as [s IH] using (induction_ltof1 _ (@length _)). unfold ltof in IH.
  rewrite runes_unfold.
  destruct s as [|b0 t0]; [split; constructor|].
  assert (IH0 : concat (map rune_raw (runes t0)) = t0 /\ Forall rune_wf (runes t0)) by (apply IH; simpl; lia).
  destruct (N.ltb_spec (bN b0) 128) as [Hlt|Hge].
  { destruct IH0 as [R W]. split; [cbn; now rewrite R|constructor; auto]. }
  assert (Hbad : concat (map rune_raw (RBad b0 :: runes t0)) = b0 :: t0 /\ Forall rune_wf (RBad b0 :: runes t0)).
  { destruct IH0 as [R W]. split; [cbn [map concat rune_raw app]; now rewrite R|constructor; auto]. }
  destruct t0 as [|b1 t1]; [exact Hbad|].
  destruct (inr 194 223 b0 && inr 128 191 b1) eqn:E2.
  { destruct (IH t1) as [R W]; [simpl; lia|]. split; [cbn [map concat rune_raw app]; now rewrite R|constructor; auto]. }
  destruct t1 as [|b2 t2]; [exact Hbad|].
  match goal with |- context [if ?c then _ else _] => destruct c eqn:E3 end.
  { destruct (IH t2) as [R W]; [simpl; lia|]. split; [cbn [map concat rune_raw app]; now rewrite R|constructor; auto]. }
  destruct t2 as [|b3 t3]; [exact Hbad|].
  match goal with |- context [if ?c then _ else _] => destruct c eqn:E4 end.
  { destruct (IH t3) as [R W]; [simpl; lia|]. split; [cbn [map concat rune_raw app]; now rewrite R|constructor; auto]. }
  exact Hbad.
Qed.

Lemma sanitize_valid s : valid_utf8 s = true -> sanitize s = s.
Proof.
  intros H. destruct (runes_spec s) as [R _]. unfold sanitize. rewrite <- R at 2.
  unfold valid_utf8 in H. clear R. revert H. induction (runes s) as [|r rs IH]; intros H; [reflexivity|].
  cbn [map concat forallb] in *. apply Bool.andb_true_iff in H as [H1 H2].
  rewrite IH by assumption. destruct r; try discriminate; reflexivity.
Qed.

Lemma multi_high c b : multi_ok c = true -> In b c -> 128 <= bN b.
Proof.
  intros H HI.
  assert (G : forall lo hi x, inr lo hi x = true -> 128 <= lo -> 128 <= bN x).
  { intros lo hi x Hx Hl. apply inr_true in Hx. lia. }
  destruct c as [|b0 [|b1 [|b2 [|b3 [|b4 c]]]]]; try discriminate; cbn [multi_ok] in H;
  repeat match goal with
    | H : _ && _ = true |- _ => apply Bool.andb_true_iff in H; destruct H
    | H : _ || _ = true |- _ => apply Bool.orb_true_iff in H; destruct H
    end;
  cbn [In] in HI; repeat (destruct HI as [<-|HI]); try contradiction; eapply G; eauto; lia.
Qed.

(** Runes of a concatenation that starts with a complete rune. *)
Lemma runes_ascii b s : bN b < 128 -> runes (b :: s) = RAscii b :: runes s.
Proof. intros H. rewrite runes_unfold. destruct (N.ltb_spec (bN b) 128); [reflexivity|lia]. Qed.
Lemma runes_multi c s : multi_ok c = true -> runes (c ++ s) = RMulti c :: runes s.
Proof.
  intros H. rewrite runes_unfold.
  destruct c as [|b0 [|b1 [|b2 [|b3 [|b4 c]]]]]; try discriminate; cbn [app multi_ok] in *.
  - pose proof H as H'. apply Bool.andb_true_iff in H' as [H1 _]. apply inr_true in H1.
    destruct (N.ltb_spec (bN b0) 128); [lia|]. now rewrite H.
  - assert (Hb : 224 <= bN b0).
    { repeat match goal with
      | H : _ && _ = true |- _ => apply Bool.andb_true_iff in H; destruct H
      | H : _ || _ = true |- _ => apply Bool.orb_true_iff in H; destruct H end;
      repeat match goal with H : inr _ _ b0 = true |- _ => apply inr_true in H end; lia. }
    destruct (N.ltb_spec (bN b0) 128); [lia|].
    replace (inr 194 223 b0) with false.
    2:{ symmetry. apply Bool.not_true_iff_false. intros G. apply inr_true in G. lia. }
    cbn [andb]. now rewrite H.
  - assert (Hb : 240 <= bN b0).
    { repeat match goal with
      | H : _ && _ = true |- _ => apply Bool.andb_true_iff in H; destruct H
      | H : _ || _ = true |- _ => apply Bool.orb_true_iff in H; destruct H end;
      repeat match goal with H : inr _ _ b0 = true |- _ => apply inr_true in H end; lia. }
    destruct (N.ltb_spec (bN b0) 128); [lia|].
    assert (G : forall lo hi, hi < 240 -> inr lo hi b0 = false).
    { intros lo hi Hh. apply Bool.not_true_iff_false. intros G. apply inr_true in G. lia. }
    rewrite (G 194 223), (G 224 224), (G 225 236), (G 237 237), (G 238 239) by lia.
    cbn [andb orb]. now rewrite H.
Qed.

Lemma runes_concat rs s :
  Forall rune_wf rs -> forallb rune_ok rs = true ->
  runes (concat (map rune_raw rs) ++ s) = rs ++ runes s.
Proof.
  induction 1 as [|r rs Hr _ IH]; intros Hok; [reflexivity|].
  cbn [map concat forallb] in *. apply Bool.andb_true_iff in Hok as [O1 O2].
  rewrite <- app_assoc. destruct r as [b|c|b]; try discriminate; cbn [rune_raw rune_wf] in *.
  - change ([b] ++ ?x) with (b :: x). rewrite runes_ascii by assumption. now rewrite IH.
  - rewrite runes_multi by assumption. now rewrite IH.
Qed.

(** Sanitising produces valid UTF-8, and is idempotent. *)
Definition rune_fix (r : rune) : rune := match r with RBad _ => RMulti fffd | r => r end.
Lemma runes_sanitize s : runes (sanitize s) = map rune_fix (runes s).
Proof.
  destruct (runes_spec s) as [_ W]. unfold sanitize.
  assert (E : map rune_sanitize (runes s) = map rune_raw (map rune_fix (runes s))).
  { rewrite map_map. apply map_ext. intros []; reflexivity. }
  rewrite E. rewrite <- (app_nil_r (concat _)). rewrite runes_concat.
  - apply app_nil_r.
  - clear E. induction W as [|r rs Hr _ IH]; [constructor|]. cbn [map]. constructor; [|exact IH].
    destruct r; try exact Hr. reflexivity.
  - clear E W. induction (runes s) as [|r rs IH]; [reflexivity|]. cbn [map forallb]. rewrite IH.
    destruct r; reflexivity.
Qed.
Lemma sanitize_is_valid s : valid_utf8 (sanitize s) = true.
Proof.
  unfold valid_utf8. rewrite runes_sanitize. induction (runes s) as [|r rs IH]; [reflexivity|].
  cbn [map forallb]. rewrite IH. destruct r; reflexivity.
Qed.
Lemma sanitize_idem s : sanitize (sanitize s) = sanitize s.
Proof. apply sanitize_valid, sanitize_is_valid. Qed.
Lemma sanitize_fix_iff s : sanitize s = s <-> valid_utf8 s = true.
Proof. split; [intros <-; apply sanitize_is_valid|apply sanitize_valid]. Qed.

(** ASCII text is valid. *)
Lemma ascii_valid s : forallb (fun b => bN b <? 128) s = true -> valid_utf8 s = true.
Proof.
  unfold valid_utf8. induction s as [|b s IH]; [reflexivity|].
  cbn [forallb]. rewrite Bool.andb_true_iff, N.ltb_lt. intros [H1 H2].
  rewrite runes_ascii by assumption. cbn [forallb rune_ok andb]. auto.
Qed.

(** ** Strings *)
Lemma ocons_app a b o : ocons a (ocons b o) = ocons (a ++ b) o.
Proof. destruct o as [[s r]|]; [|reflexivity]. cbn. now rewrite app_assoc. Qed.

Lemma parse_raw b rest : 128 <= bN b -> parse_str (b :: rest) = ocons [b] (parse_str rest).
Proof. destruct b; intros H; try reflexivity; exfalso; revert H; vm_compute; intros H; now apply H. Qed.

Lemma parse_raws c rest : (forall b, In b c -> 128 <= bN b) -> parse_str (c ++ rest) = ocons c (parse_str rest).
Proof.
  induction c as [|b c IH]; intros H.
  - cbn. now destruct (parse_str rest) as [[? ?]|].
  - cbn [app]. rewrite parse_raw by (apply H; now left).
    rewrite IH by (intros; apply H; now right). now rewrite ocons_app.
Qed.

Lemma parse_esc_rune r rest : rune_wf r ->
  parse_str (esc_rune r ++ rest) = ocons (rune_sanitize r) (parse_str rest).
Proof.
  intros W. destruct r as [b|c|b]; cbn [rune_wf] in W.
  - clear W. destruct b; reflexivity.
  - unfold esc_rune.
    destruct (bytes_eqb c [xe2; x80; xa8]) eqn:E1; [apply bytes_eqb_eq in E1; subst; reflexivity|].
    destruct (bytes_eqb c [xe2; x80; xa9]) eqn:E2; [apply bytes_eqb_eq in E2; subst; reflexivity|].
    apply parse_raws. intros b Hb. eapply multi_high; eauto.
  - reflexivity.
Qed.

Lemma parse_str_quote s rest :
  parse_str (concat (map esc_rune (runes s)) ++ x22 :: rest) = Some (sanitize s, rest).
Proof.
  destruct (runes_spec s) as [_ W]. unfold sanitize.
  induction W as [|r rs Hr _ IH]; [reflexivity|].
  cbn [map concat]. rewrite <- app_assoc, parse_esc_rune by assumption. rewrite IH. reflexivity.
Qed.

(** ** Values *)
Fixpoint jsize (j : json) : nat :=
  match j with
  | JArr l => S (list_sum (map (fun v => S (jsize v)) l))
  | JObj l => S (list_sum (map (fun kv => S (jsize (snd kv))) l))
  | _ => 1
  end.
Fixpoint canon (j : json) : json :=
  match j with
  | JStr s => JStr (sanitize s)
  | JArr l => JArr (map canon l)
  | JObj l => JObj (map (fun kv => (sanitize (fst kv), canon (snd kv))) l)
  | j => j
  end.
Fixpoint jwf (j : json) : Prop :=
  match j with
  | JNum raw => raw <> [] /\ forallb is_num raw = true
  | JArr l => fold_right (fun v P => jwf v /\ P) True l
  | JObj l => fold_right (fun kv P => jwf (snd kv) /\ P) True l
  | _ => True
  end.

(** What may follow a value. *)
Definition delim (l : bytes) : Prop := match l with [] => True | b :: _ => is_num b = false end.

Lemma token_nws b t : is_ws b = false -> token (b :: t) = Some (b, t).
Proof. intros H. unfold token. cbn [skip_ws]. now rewrite H. Qed.

Lemma num_not_special b : is_num b = true ->
  is_ws b = false /\ byte_eqb b x22 = false /\ byte_eqb b x6e = false /\ byte_eqb b x74 = false /\
  byte_eqb b x66 = false /\ byte_eqb b x7b = false /\ byte_eqb b x5b = false.
Proof. destruct b; vm_compute; intros H; try discriminate H; repeat split; reflexivity. Qed.

Lemma span_num_app raw rest : forallb is_num raw = true -> delim rest -> span_num (raw ++ rest) = (raw, rest).
Proof.
  induction raw as [|b raw IH]; intros H D.
  - destruct rest as [|c rest]; [reflexivity|]. cbn in *. now rewrite D.
  - cbn [app forallb span_num] in *. apply Bool.andb_true_iff in H as [H1 H2]. rewrite H1.
    now rewrite IH.
Qed.

Definition pmember (kv : bytes * json) : bytes := quote (fst kv) ++ str ":" ++ print (snd kv).
Definition cmember (kv : bytes * json) : bytes * json := (sanitize (fst kv), canon (snd kv)).

Lemma print_obj l : print (JObj l) = x7b :: join (str ",") (map pmember l) ++ [x7d].
Proof. reflexivity. Qed.
Lemma print_arr l : print (JArr l) = x5b :: join (str ",") (map print l) ++ [x5d].
Proof. reflexivity. Qed.

(** First byte of a printed value. *)
Definition starts_value (b : byte) : Prop :=
  is_ws b = false /\ byte_eqb b x5d = false /\ byte_eqb b x7d = false.
Lemma print_head j : jwf j -> exists b t, print j = b :: t /\ starts_value b.
Proof.
  destruct j as [|[]|raw|s|l|l]; intros W.
  - exists x6e, (str "ull"). repeat split.
  - exists x74, (str "rue"). repeat split.
  - exists x66, (str "alse"). repeat split.
  - destruct W as [W1 W2]. destruct raw as [|b raw]; [congruence|].
    exists b, raw. split; [reflexivity|]. cbn [forallb] in W2. apply Bool.andb_true_iff in W2 as [W2 _].
    unfold starts_value. split; [now apply num_not_special|].
    revert W2. clear. destruct b; vm_compute; intros H; try discriminate H; split; reflexivity.
  - eexists x22, _. split; [reflexivity|]. repeat split.
  - eexists x5b, _. split; [reflexivity|]. repeat split.
  - eexists x7b, _. split; [reflexivity|]. repeat split.
Qed.

Lemma list_sum_In {A} (f : A -> nat) x l : In x l -> (f x <= list_sum (map f l))%nat.
Proof.
  induction l as [|y l IH]; [intros []|]. cbn [map list_sum fold_right].
  change (fold_right Nat.add 0%nat (map f l)) with (list_sum (map f l)).
  intros [->|H]; [lia|]. specialize (IH H). lia.
Qed.

Lemma parse_print n : forall j fuel rest,
  (jsize j <= n)%nat -> (jsize j <= fuel)%nat -> jwf j -> delim rest ->
  parse_value fuel (print j ++ rest) = Some (canon j, rest).
Proof.
  induction n as [|n IH]; intros j fuel rest Hn Hf W D.
  { destruct j; cbn in Hn; lia. }
  destruct fuel as [|f]; [destruct j; cbn in Hf; lia|].
  destruct j as [|[]|raw|s|l|l].
  - reflexivity.
  - reflexivity.
  - reflexivity.
  - destruct W as [W1 W2]. destruct raw as [|b raw]; [congruence|].
    pose proof W2 as W3. cbn [forallb] in W3. apply Bool.andb_true_iff in W3 as [Wb _].
    destruct (num_not_special b Wb) as (A1 & A2 & A3 & A4 & A5 & A6 & A7).
    cbn [print parse_value app]. rewrite token_nws by assumption.
    rewrite A2, A3, A4, A5, A6, A7, Wb.
    change (b :: raw ++ rest) with ((b :: raw) ++ rest). rewrite span_num_app by assumption. reflexivity.
  - cbn [print parse_value]. unfold quote. cbn [app]. rewrite token_nws by reflexivity.
    rewrite byte_eqb_refl. rewrite <- app_assoc. cbn [app]. rewrite parse_str_quote. reflexivity.
  - (* array *)
    rewrite print_arr. cbn [parse_value app]. rewrite token_nws by reflexivity.
    change (byte_eqb x5b x22) with false. change (byte_eqb x5b x6e) with false.
    change (byte_eqb x5b x74) with false. change (byte_eqb x5b x66) with false.
    change (byte_eqb x5b x7b) with false. change (byte_eqb x5b x5b) with true. cbv iota.
    destruct l as [|v0 l0]; [reflexivity|].
    assert (G : forall l v fuel rest,
       (list_sum (map (fun v => S (jsize v)) (v :: l)) <= n)%nat ->
       (list_sum (map (fun v => S (jsize v)) (v :: l)) <= fuel)%nat ->
       fold_right (fun v P => jwf v /\ P) True (v :: l) ->
       parse_elems fuel (join (str ",") (map print (v :: l)) ++ x5d :: rest) = Some (map canon (v :: l), rest)).
    { clear - IH. intros l. induction l as [|v' l IHl]; intros v fuel rest Hn Hf W.
      - destruct fuel as [|f]; [cbn in Hf; lia|]. cbn [parse_elems map join].
        cbn in Hn, Hf. rewrite IH; [|lia|lia|apply W|reflexivity].
        rewrite token_nws by reflexivity. reflexivity.
      - destruct fuel as [|f]; [cbn in Hf; lia|]. cbn [parse_elems].
        change (join (str ",") (map print (v :: v' :: l))) with
          (print v ++ str "," ++ join (str ",") (map print (v' :: l))).
        rewrite <- !app_assoc.
        cbn [map list_sum fold_right] in Hn, Hf.
        rewrite IH; [|lia|lia|apply W|reflexivity].
        change (str "," ++ ?x) with (x2c :: x). rewrite token_nws by reflexivity.
        change (byte_eqb x2c x2c) with true. cbv iota.
        rewrite IHl; [reflexivity| cbn [map list_sum fold_right]; lia | cbn [map list_sum fold_right]; lia|apply W]. }
    rewrite <- app_assoc. cbn [app].
    destruct (print_head v0) as (b & t & Hp & S1 & S2 & S3); [apply W|].
    assert (Hh : exists t', join (str ",") (map print (v0 :: l0)) ++ x5d :: rest = b :: t').
    { cbn [map]. destruct l0; cbn [map join]; rewrite Hp; cbn [app]; eauto. }
    destruct Hh as [t' Ht']. specialize (G l0 v0 f rest).
    rewrite Ht' in *. rewrite token_nws by assumption. rewrite S2.
    rewrite G; [reflexivity| | |exact W].
    + cbn [jsize map list_sum fold_right] in Hn. cbn [map list_sum fold_right]. lia.
    + cbn [jsize map list_sum fold_right] in Hf. cbn [map list_sum fold_right]. lia.
  - (* object *)
    rewrite print_obj. cbn [parse_value app]. rewrite token_nws by reflexivity.
    change (byte_eqb x7b x22) with false. change (byte_eqb x7b x6e) with false.
    change (byte_eqb x7b x74) with false. change (byte_eqb x7b x66) with false.
    change (byte_eqb x7b x7b) with true. cbv iota.
    destruct l as [|v0 l0]; [reflexivity|].
    assert (G : forall l v fuel rest,
       (list_sum (map (fun kv => S (jsize (snd kv))) (v :: l)) <= n)%nat ->
       (list_sum (map (fun kv => S (jsize (snd kv))) (v :: l)) <= fuel)%nat ->
       fold_right (fun kv P => jwf (snd kv) /\ P) True (v :: l) ->
       parse_members fuel (join (str ",") (map pmember (v :: l)) ++ x7d :: rest) = Some (map cmember (v :: l), rest)).
    { clear - IH. intros l. induction l as [|v' l IHl]; intros [k v] fuel rest Hn Hf W.
      - destruct fuel as [|f]; [cbn in Hf; lia|]. cbn [parse_members map join].
        unfold pmember, quote. cbn [fst snd app]. rewrite token_nws by reflexivity.
        change (negb (byte_eqb x22 x22)) with false. cbv iota.
        rewrite <- !app_assoc. cbn [app]. rewrite parse_str_quote. change (str ":" ++ ?x) with (x3a :: x). rewrite token_nws by reflexivity.
        change (negb (byte_eqb x3a x3a)) with false. cbv iota.
        cbn in Hn, Hf. rewrite IH; [|lia|lia|apply W|reflexivity].
        rewrite token_nws by reflexivity. reflexivity.
      - destruct fuel as [|f]; [cbn in Hf; lia|]. cbn [parse_members].
        change (join (str ",") (map pmember ((k, v) :: v' :: l))) with
          (pmember (k, v) ++ str "," ++ join (str ",") (map pmember (v' :: l))).
        cbn [map list_sum fold_right] in Hn, Hf.
        unfold pmember at 1, quote. cbn [fst snd app]. rewrite token_nws by reflexivity.
        change (negb (byte_eqb x22 x22)) with false. cbv iota.
        rewrite <- !app_assoc. cbn [app]. rewrite parse_str_quote. change (str ":" ++ ?x) with (x3a :: x). rewrite token_nws by reflexivity.
        change (negb (byte_eqb x3a x3a)) with false. cbv iota.

        rewrite IH; [|cbn [snd] in Hn; lia|cbn [snd] in Hf; lia|apply W|reflexivity].
        change (str "," ++ ?x) with (x2c :: x). rewrite token_nws by reflexivity.
        change (byte_eqb x2c x2c) with true. cbv iota.
        rewrite IHl; [reflexivity| cbn [map list_sum fold_right]; lia | cbn [map list_sum fold_right]; lia|apply W]. }
    rewrite <- app_assoc. cbn [app].
    assert (Hh : exists t', join (str ",") (map pmember (v0 :: l0)) ++ x7d :: rest = x22 :: t').
    { cbn [map]. destruct l0; cbn [map join]; unfold pmember, quote; cbn [app]; eauto. }
    destruct Hh as [t' Ht']. specialize (G l0 v0 f rest).
    rewrite Ht' in *. rewrite token_nws by reflexivity. change (byte_eqb x22 x7d) with false. cbv iota.
    rewrite G; [reflexivity| | |exact W].
    + cbn [jsize map list_sum fold_right] in Hn. cbn [map list_sum fold_right]. lia.
    + cbn [jsize map list_sum fold_right] in Hf. cbn [map list_sum fold_right]. lia.
Qed.

Lemma join_length sep l : (list_sum (map (@length _) l) <= length (join sep l))%nat.
Proof.
  induction l as [|x [|y l] IH]; [cbn; lia|cbn; lia|].
  change (join sep (x :: y :: l)) with (x ++ sep ++ join sep (y :: l)).
  rewrite !app_length. cbn [map list_sum fold_right] in *. lia.
Qed.

Lemma json_rect_size (P : json -> Prop) :
  (forall j, (forall k, (jsize k < jsize j)%nat -> P k) -> P j) -> forall j, P j.
Proof. intros H j. induction j as [j IH] using (induction_ltof1 _ jsize). apply H, IH. Qed.

Lemma list_sum_le {A} (f g : A -> nat) l : (forall x, In x l -> (f x <= g x)%nat) ->
  (list_sum (map f l) <= list_sum (map g l))%nat.
Proof.
  induction l as [|x l IH]; intros H; [cbn; lia|].
  cbn [map list_sum fold_right]. change (fold_right Nat.add 0%nat) with list_sum.
  pose proof (H x (or_introl eq_refl)). specialize (IH (fun y Hy => H y (or_intror Hy))). lia.
Qed.
Lemma jwf_arr l v : jwf (JArr l) -> In v l -> jwf v.
Proof. induction l as [|x l IH]; [intros _ []|]. intros [H1 H2] [->|H]; auto. Qed.
Lemma jwf_obj l kv : jwf (JObj l) -> In kv l -> jwf (snd kv).
Proof. induction l as [|x l IH]; [intros _ []|]. intros [H1 H2] [->|H]; auto. Qed.

Lemma jsize_print j : jwf j -> (jsize j <= length (print j))%nat.
Proof.
  induction j as [j IH] using json_rect_size. intros W.
  destruct j as [|[]|raw|s|l|l]; try (cbn; lia).
  - destruct W as [W _]. destruct raw; [congruence|cbn; lia].
  - rewrite print_arr. cbn [length]. rewrite app_length.
    pose proof (join_length (str ",") (map print l)) as J. rewrite map_map in J.
    cbn [jsize].
    assert (G : (list_sum (map (fun v => S (jsize v)) l) <= length l + list_sum (map (fun x => length (print x)) l))%nat).
    { assert (HI : forall v, In v l -> (jsize v <= length (print v))%nat).
      { intros v Hv. apply IH; [|eapply jwf_arr; eauto].
        pose proof (list_sum_In (fun v => S (jsize v)) v l Hv) as LS. cbv beta in LS. cbn [jsize]. lia. }
      clear - HI. induction l as [|v l IHl]; [cbn; lia|].
      cbn [map list_sum fold_right length]. change (fold_right Nat.add 0%nat) with list_sum.
      pose proof (HI v (or_introl eq_refl)). specialize (IHl (fun y Hy => HI y (or_intror Hy))). lia. }
    (* separators pay for the extra unit per element but one *)
    assert (J2 : forall l : list bytes, l <> [] -> (list_sum (map (@length _) l) + length l <= length (join (str ",") l) + 1)%nat).
    { clear. induction l as [|x [|y l] IHl]; intros Hl; [congruence|cbn; lia|].
      change (join (str ",") (x :: y :: l)) with (x ++ str "," ++ join (str ",") (y :: l)).
      rewrite !app_length. specialize (IHl ltac:(discriminate)).
      unfold list_sum in *. cbn [map fold_right length] in *. change (length (str ",")) with 1%nat. lia. }
    destruct l as [|v l]; [cbn; lia|].
    specialize (J2 (map print (v :: l)) ltac:(discriminate)). rewrite map_map, map_length in J2.
    cbn [length] in *. lia.
  - rewrite print_obj. cbn [length]. rewrite app_length.
    pose proof (join_length (str ",") (map pmember l)) as J. rewrite map_map in J.
    cbn [jsize].
    assert (G : (list_sum (map (fun kv => S (jsize (snd kv))) l) <= list_sum (map (fun x => length (pmember x)) l))%nat).
    { apply list_sum_le. intros kv Hk. unfold pmember, quote. rewrite !app_length. cbn [length].
      rewrite app_length.
      assert (jsize (snd kv) <= length (print (snd kv)))%nat.
      { apply IH; [|eapply jwf_obj; eauto].
        pose proof (list_sum_In (fun kv => S (jsize (snd kv))) kv l Hk) as LS. cbv beta in LS. cbn [jsize]. lia. }
      change (length (str ":")) with 1%nat. lia. }
    cbn [length]. lia.
Qed.

Theorem json_roundtrip j : jwf j -> json_parse (print j) = Some (canon j).
Proof.
  intros W. unfold json_parse.
  pose proof (jsize_print j W) as Hs.
  pose proof (parse_print (jsize j) j (S (length (print j))) [] (le_n _) ltac:(lia) W I) as P.
  rewrite app_nil_r in P. rewrite P.
  reflexivity.
Qed.

(** ** Numbers *)
Lemma dec_loop_app l1 : forall l2 acc n, dec_loop l1 acc = Some n -> dec_loop (l1 ++ l2) acc = dec_loop l2 n.
Proof.
  induction l1 as [|b l1 IH]; intros l2 acc n; cbn [dec_loop app].
  - intros H; injection H as ->. reflexivity.
  - destruct (dec_digit b); [|discriminate]. apply IH.
Qed.
Lemma dec_digit_Nb d : d < 10 -> dec_digit (Nb (48 + d)) = Some d.
Proof.
  intros H. unfold dec_digit, inr. rewrite bN_Nb by lia.
  destruct (N.leb_spec 48 (48 + d)); [|lia]. destruct (N.leb_spec (48 + d) 57); [|lia].
  cbn [andb]. f_equal. lia.
Qed.
Lemma digits_loop_spec fuel : forall n acc (a : N), n < 10 ^ N.of_nat fuel -> (0 < fuel)%nat ->
  exists ds, digits_loop fuel n acc = ds ++ acc /\ ds <> [] /\
    (forall a, dec_loop ds a = Some (a * 10 ^ blen ds + n)) /\
    (n <> 0 -> exists d t, ds = Nb (48 + d) :: t /\ 0 < d < 10) /\ (n = 0 -> ds = [x30]) /\
    forallb is_num ds = true.
Proof.
  induction fuel as [|f IH]; intros n acc a Hn Hf; [lia|].
  assert (Hisn : is_num (Nb (48 + n mod 10)) = true).
  { unfold is_num, inr. rewrite bN_Nb by lia.
    destruct (N.leb_spec 48 (48 + n mod 10)); [|lia]. destruct (N.leb_spec (48 + n mod 10) 57); [reflexivity|lia]. }
  cbn [digits_loop]. destruct (N.eqb_spec (n / 10) 0) as [Hz|Hz].
  - exists [Nb (48 + n mod 10)]. repeat split.
    + discriminate.
    + intros a'. cbn [dec_loop]. rewrite dec_digit_Nb by lia. f_equal. cbn [blen length]. 
      change (blen [Nb (48 + n mod 10)]) with 1. lia.
    + intros Hnz. exists n, []. split; [|lia]. do 2 f_equal. lia.
    + intros ->. reflexivity.
    + cbn [forallb]. now rewrite Hisn.
  - assert (Hf0 : (0 < f)%nat).
    { destruct f; [|lia]. cbn in Hn. lia. }
    destruct (IH (n / 10) (Nb (48 + n mod 10) :: acc) a) as (ds & E & Hne & Hd & Hnz & Hz0 & Hi); auto.
    { replace (N.of_nat (S f)) with (N.succ (N.of_nat f)) in Hn by lia. rewrite N.pow_succ_r' in Hn. lia. }
    exists (ds ++ [Nb (48 + n mod 10)]). repeat split.
    + rewrite E, <- app_assoc. reflexivity.
    + destruct ds; discriminate.
    + intros a'. erewrite dec_loop_app by apply Hd. cbn [dec_loop]. rewrite dec_digit_Nb by lia.
      f_equal. unfold blen. rewrite app_length, Nat2N.inj_add. cbn [length]. change (N.of_nat 1) with 1.
      rewrite N.pow_add_r. lia.
    + intros _. destruct (Hnz Hz) as (d & t & -> & Hd'). exists d, (t ++ [Nb (48 + n mod 10)]). auto.
    + intros ->. lia.
    + rewrite forallb_app. rewrite Hi. cbn [forallb]. now rewrite Hisn.
Qed.
Lemma dec_print_spec n : n < 2 ^ 64 ->
  dec_parse (dec_print n) = Some n /\ dec_print n <> [] /\ forallb is_num (dec_print n) = true.
Proof.
  intros H. unfold dec_print.
  destruct (digits_loop_spec 20 n [] 0) as (ds & E & Hne & Hd & Hnz & Hz & Hi); [|lia|].
  { eapply N.lt_trans; [exact H|]. reflexivity. }
  rewrite app_nil_r in E. rewrite E. repeat split; auto.
  unfold dec_parse. destruct ds as [|b t]; [congruence|].
  destruct (N.eq_dec n 0) as [->|Hn0].
  - specialize (Hz eq_refl). injection Hz as -> ->. reflexivity.
  - destruct (Hnz Hn0) as (d & t' & Hc & Hd1 & Hd2). injection Hc as -> ->.
    assert (Hb : byte_eqb (Nb (48 + d)) x30 = false).
    { destruct (byte_eqb (Nb (48 + d)) x30) eqn:Eb; [|reflexivity].
      apply byte_eqb_eq in Eb. assert (bN (Nb (48 + d)) = 48) by now rewrite Eb.
      rewrite bN_Nb in H0 by lia. lia. }
    rewrite Hb. cbn [andb]. rewrite Hd. rewrite N.mul_0_l, N.add_0_l.
    destruct (N.ltb_spec n (2 ^ 64)); [reflexivity|lia].
Qed.

(** Base64 text needs no escaping. *)
Lemma esc_b64 s : forallb b64_char s = true -> concat (map esc_rune (runes s)) = s.
Proof.
  induction s as [|b s IH]; [reflexivity|]. cbn [forallb].
  rewrite Bool.andb_true_iff. intros [H1 H2].
  assert (G : bN b < 128 /\ esc_rune (RAscii b) = [b]).
  { clear - H1. destruct b; vm_compute in H1; try discriminate H1; split; reflexivity. }
  destruct G as [G1 G2]. rewrite runes_ascii by assumption.
  cbn [map concat]. rewrite G2, IH by assumption. reflexivity.
Qed.
Lemma quote_b64 l : quote (b64std_encode l) = x22 :: b64std_encode l ++ [x22].
Proof. unfold quote. now rewrite esc_b64 by apply b64std_chars. Qed.
Lemma b64_valid l : valid_utf8 (b64std_encode l) = true.
Proof.
  apply ascii_valid. pose proof (b64std_chars l) as H. rewrite forallb_forall in *.
  intros b Hb. specialize (H b Hb). clear - H. destruct b; vm_compute in H; try discriminate H; reflexivity.
Qed.
Lemma sanitize_b64 l : sanitize (b64std_encode l) = b64std_encode l.
Proof. apply sanitize_valid, b64_valid. Qed.

Lemma dec_bytes_jbytes s : dec_bytes (canon (jbytes s)) = Some s.
Proof. destruct s as [b|]; [|reflexivity]. cbn. now rewrite sanitize_b64, b64std_roundtrip. Qed.
Lemma jbytes_wf s : jwf (jbytes s).
Proof. destruct s; exact I. Qed.

(** Marshalled []byte values are injective (used as AEAD associated data). *)
Lemma print_jbytes_inj a b : print (jbytes a) = print (jbytes b) -> a = b.
Proof.
  intros H. assert (G : json_parse (print (jbytes a)) = json_parse (print (jbytes b))) by now rewrite H.
  rewrite !json_roundtrip in G by apply jbytes_wf. injection G as G.
  assert (E : dec_bytes (canon (jbytes a)) = dec_bytes (canon (jbytes b))) by now rewrite G.
  rewrite !dec_bytes_jbytes in E. congruence.
Qed.
