(** The model's text and scope checks agree with the specification's. *)
From Coq Require Import ZifyN ZifyNat.
From stdpp Require Import gmap.
From Verif Require Import Bytes Go Json JsonProofs Id Types TypesProofs Data D1 Spec.
Local Open Scope bool_scope.
Local Open Scope N_scope.

Ltac Zify.zify_post_hook ::= Z.to_euclidean_division_equations.

(** ** UTF-8 *)
Definition scalar_rune (c : N) : rune := if c <? 128 then RAscii (Nb c) else RMulti (utf8_char c).
Lemma inr_Nb lo hi n : n < 256 -> inr lo hi (Nb n) = (lo <=? n) && (n <=? hi).
Proof. intros H. unfold inr. now rewrite bN_Nb. Qed.
Lemma scalar_rune_wf c : scalar c -> rune_wf (scalar_rune c).
Proof.
  intros [H1 H2]. unfold scalar_rune, utf8_char. destruct (N.ltb_spec c 128) as [L|L].
  - cbn. rewrite bN_Nb; lia.
  - destruct (N.ltb_spec c 2048) as [L2|L2]; [|destruct (N.ltb_spec c 65536) as [L3|L3]]; cbn [rune_wf multi_ok];
      rewrite !inr_Nb by lia; repeat rewrite ?Bool.andb_true_iff, ?Bool.orb_true_iff; rewrite ?N.leb_le; lia.
Qed.
Lemma scalar_rune_raw c : scalar c -> rune_raw (scalar_rune c) = utf8_char c /\ rune_ok (scalar_rune c) = true.
Proof.
  intros _. unfold scalar_rune. destruct (c <? 128) eqn:E; [|split; reflexivity].
  unfold utf8_char. now rewrite E.
Qed.
Lemma Utf8_valid s : Utf8 s -> valid_utf8 s = true.
Proof.
  intros (l & Hl & ->).
  assert (E : map utf8_char l = map rune_raw (map scalar_rune l)).
  { rewrite map_map. apply map_ext_in. intros c Hc. symmetry. apply scalar_rune_raw.
    rewrite List.Forall_forall in Hl. now apply Hl. }
  rewrite E. unfold valid_utf8. rewrite <- (app_nil_r (concat _)), runes_concat.
  - rewrite app_nil_r. apply forallb_forall. intros r Hr. apply in_map_iff in Hr as (c & <- & Hc).
    apply scalar_rune_raw. rewrite List.Forall_forall in Hl. now apply Hl.
  - apply List.Forall_forall. intros r Hr. apply in_map_iff in Hr as (c & <- & Hc).
    apply scalar_rune_wf. rewrite List.Forall_forall in Hl. now apply Hl.
  - apply forallb_forall. intros r Hr. apply in_map_iff in Hr as (c & <- & Hc).
    apply scalar_rune_raw. rewrite List.Forall_forall in Hl. now apply Hl.
Qed.

(** Decoding one character. *)
Definition rune_scalar (r : rune) : N :=
  match r with
  | RAscii b => bN b
  | RMulti [b0; b1] => (bN b0 - 192) * 64 + (bN b1 - 128)
  | RMulti [b0; b1; b2] => (bN b0 - 224) * 4096 + (bN b1 - 128) * 64 + (bN b2 - 128)
  | RMulti [b0; b1; b2; b3] => (bN b0 - 240) * 262144 + (bN b1 - 128) * 4096 + (bN b2 - 128) * 64 + (bN b3 - 128)
  | _ => 0
  end.
Lemma Nb_eq b n : n = bN b -> Nb n = b.
Proof. intros ->. apply Nb_bN. Qed.
Lemma rune_scalar_ok r : rune_wf r -> rune_ok r = true ->
  scalar (rune_scalar r) /\ utf8_char (rune_scalar r) = rune_raw r.
Proof.
  destruct r as [b|c|b]; intros W OK; [| |discriminate].
  - cbn in *. split; [split; lia|]. unfold utf8_char. destruct (N.ltb_spec (bN b) 128); [|lia]. now rewrite Nb_bN.
  - clear OK. destruct c as [|b0 [|b1 [|b2 [|b3 [|b4 c]]]]]; try discriminate W; cbn [rune_wf multi_ok rune_scalar rune_raw] in *;
      unfold inr in W; repeat rewrite ?Bool.andb_true_iff, ?Bool.orb_true_iff in W; rewrite ?N.leb_le in W;
      match goal with |- scalar ?x /\ _ => remember x as c eqn:Ec end;
      (split; [split; lia|]); unfold utf8_char;
      destruct (N.ltb_spec c 128); try lia; destruct (N.ltb_spec c 2048); try lia;
      try (destruct (N.ltb_spec c 65536); try lia);
      repeat f_equal; apply Nb_eq; lia.
Qed.
Lemma valid_Utf8 s : valid_utf8 s = true -> Utf8 s.
Proof.
  intros H. destruct (runes_spec s) as [E W]. exists (map rune_scalar (runes s)).
  unfold valid_utf8 in H. rewrite forallb_forall in H. rewrite List.Forall_forall in W. split.
  - apply List.Forall_forall. intros c Hc. apply in_map_iff in Hc as (r & <- & Hr).
    apply rune_scalar_ok; [now apply W|now apply H].
  - rewrite <- E at 1. f_equal. rewrite map_map. apply map_ext_in. intros r Hr. symmetry.
    apply rune_scalar_ok; [now apply W|now apply H].
Qed.
Lemma Utf8_iff s : Utf8 s <-> valid_utf8 s = true.
Proof. split; [apply Utf8_valid|apply valid_Utf8]. Qed.

(** ** What comes back from storage *)
Lemma as_text_valid s : valid_utf8 (as_text s) = true.
Proof. apply sanitize_is_valid. Qed.
Lemma as_text_id s : valid_utf8 s = true -> as_text s = s.
Proof. apply sanitize_valid. Qed.
Lemma as_text_utf8 s : Utf8 s -> as_text s = s.
Proof. intros H. apply as_text_id. now apply Utf8_valid. Qed.
Lemma as_text_map l : Forall Utf8 l -> map as_text l = l.
Proof. induction 1 as [|s l Hs _ IH]; [reflexivity|]. cbn [map]. now rewrite IH, as_text_utf8. Qed.
Lemma texts_valid l g : g ∈ (list_to_set (map as_text l) : gset bytes) -> valid_utf8 g = true.
Proof. intros H. apply elem_of_list_to_set, elem_of_list_In, in_map_iff in H as (x & <- & _). apply as_text_valid. Qed.
Lemma norm_texts l : norm_set (Some (list_to_set l)) = Some (list_to_set (map as_text l)).
Proof.
  cbn. f_equal. apply set_eq. intros g. rewrite elem_of_map, elem_of_list_to_set. split.
  - intros (x & -> & Hx). apply elem_of_list_to_set in Hx. apply elem_of_list_fmap. exists x. split; [reflexivity|exact Hx].
  - intros Hg. apply elem_of_list_fmap in Hg as (x & -> & Hx). exists x. split; [reflexivity|now apply elem_of_list_to_set].
Qed.
Lemma norm_union acl l : (forall g, g ∈ acl -> valid_utf8 g = true) ->
  norm_set (Some (acl ∪ list_to_set l)) = Some (acl ∪ list_to_set (map as_text l)).
Proof.
  intros V. pose proof (norm_texts l) as E. cbn in E. injection E as E. cbn. f_equal. rewrite set_map_union_L, E. f_equal.
  pose proof (norm_set_valid (Some acl) V) as E'. cbn in E'. now injection E'.
Qed.

(** ** Scopes *)
Lemma scope_contains_has have need : scope_contains have need = true <-> scope_has have need.
Proof.
  unfold scope_contains, scope_has. rewrite N.eqb_eq. split.
  - intros E b Hb. rewrite <- E, N.land_spec in Hb. now apply andb_prop in Hb.
  - intros H. apply N.bits_inj. intros b. rewrite N.land_spec.
    destruct (N.testbit need b) eqn:Eb; [rewrite (H b Eb)|rewrite Bool.andb_false_r]; reflexivity.
Qed.
Lemma scope_contains_hasnt have need : scope_contains have need = false <-> ~ scope_has have need.
Proof. rewrite <- scope_contains_has. destruct (scope_contains _ _); intuition congruence. Qed.

(** The authorization loop, once the caller has the scope at all. *)
Lemma authorized_on_list i need acl dek : scope_has (i_scopes i) need ->
  authorized i need (mkAccess (Some acl) dek) = true <-> on_list i need acl.
Proof.
  intros HS. unfold authorized, on_list. rewrite existsb_exists. cbn [a_groups contains_groups forallb].
  split.
  - intros (g & Hg & H). rewrite Bool.andb_true_r in H. apply andb_prop in H as [H1 H2].
    apply bool_decide_eq_true in H1. apply scope_contains_has in H2.
    apply elem_of_list_In, elem_of_elements in Hg. unfold get_ids in Hg. unfold get_id_scope in H2.
    destruct (bytes_eqb g (i_id i)) eqn:E.
    + apply bytes_eqb_eq in E. subst. auto.
    + right. apply elem_of_union in Hg as [Hg|Hg].
      * apply elem_of_singleton in Hg. subst. rewrite (proj2 (bytes_eqb_eq _ _) eq_refl) in E. discriminate.
      * apply elem_of_dom in Hg as [s Hs]. rewrite Hs in H2. eauto.
  - intros [[H1 H2]|(g & s & H1 & H2 & H3)].
    + exists (i_id i). split.
      * apply elem_of_list_In, elem_of_elements. unfold get_ids. set_solver.
      * rewrite Bool.andb_true_r, andb_true_iff. split; [now apply bool_decide_eq_true|].
        apply scope_contains_has. unfold get_id_scope. now rewrite (proj2 (bytes_eqb_eq _ _) eq_refl).
    + exists g. split.
      * apply elem_of_list_In, elem_of_elements. unfold get_ids. apply elem_of_union_r, elem_of_dom. eauto.
      * rewrite Bool.andb_true_r, andb_true_iff. split; [now apply bool_decide_eq_true|].
        apply scope_contains_has. unfold get_id_scope. rewrite H1. destruct (bytes_eqb g (i_id i)); assumption.
Qed.
