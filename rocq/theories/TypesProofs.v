(** Round trips of the stored structures. *)
From stdpp Require Import gmap.
From Coq Require Import ZifyN ZifyNat.
From Verif Require Import Bytes Base64 Json JsonProofs Uuid UuidProofs Time TimeProofs Types.
Local Open Scope bool_scope.
Local Open Scope N_scope.

Lemma unmarshal_print {A} (dec : json -> option A) j : jwf j -> unmarshal dec (print j) = dec (canon j).
Proof. intros W. unfold unmarshal. now rewrite json_roundtrip. Qed.

(** Sets of strings as they come back from storage. *)
Definition norm_set (s : option (gset bytes)) : option (gset bytes) :=
  match s with None => None | Some g => Some (set_map sanitize g) end.
Definition valid_set (s : option (gset bytes)) : Prop :=
  match s with None => True | Some g => forall k, k ∈ g -> valid_utf8 k = true end.
Lemma norm_set_valid s : valid_set s -> norm_set s = s.
Proof.
  destruct s as [g|]; [|reflexivity]. cbn. intros H. f_equal. apply set_eq. intros k.
  rewrite elem_of_map. split.
  - intros (x & -> & Hx). rewrite sanitize_valid; auto.
  - intros Hk. exists k. rewrite sanitize_valid; auto.
Qed.

Lemma canon_members l : canon (JObj l) = JObj (map cmember l).
Proof. reflexivity. Qed.

Lemma dec_set_canon s : dec_set (canon (enc_set s)) = Some (norm_set s).
Proof.
  destruct s as [g|]; [|reflexivity]. cbn [enc_set]. rewrite canon_members. cbn [dec_set norm_set].
  rewrite !map_map. unfold cmember. cbn [fst snd].
  replace (forallb _ _) with true.
  - do 3 f_equal.
  - symmetry. apply forallb_forall. intros kv Hkv. apply in_map_iff in Hkv as (k & <- & _). reflexivity.
Qed.

(** Decoding a set does not depend on the order of its members. *)
Lemma dec_set_perm l l' : Permutation l l' -> dec_set (JObj l) = dec_set (JObj l').
Proof.
  intros P. cbn [dec_set].
  replace (forallb (fun kv => is_unit (snd kv)) l') with (forallb (fun kv => is_unit (snd kv)) l).
  - destruct (forallb _ _); [|reflexivity]. do 2 f_equal. apply set_eq. intros k.
    rewrite !elem_of_list_to_set. now rewrite P.
  - apply Bool.eq_iff_eq_true. rewrite !forallb_forall. split; intros H x Hx; apply H.
    + eapply Permutation_in; [symmetry; exact P|exact Hx].
    + eapply Permutation_in; [exact P|exact Hx].
Qed.

Lemma enc_set_wf s : jwf (enc_set s).
Proof.
  destruct s as [g|]; [|exact I]. cbn [enc_set jwf].
  induction (elements g) as [|k l IH]; [exact I|]. split; [exact I|exact IH].
Qed.

Lemma dec_uuid_canon u : uuid_wf u -> dec_uuid (canon (enc_uuid u)) = Some u.
Proof. intros H. cbn. rewrite uuid_text_sanitize. now apply uuid_parse_text. Qed.
Lemma dec_uint64_canon n : n < 2 ^ 64 -> dec_uint64 (canon (JNum (dec_print n))) = Some n.
Proof. intros H. cbn. now apply dec_print_spec. Qed.
Lemma jnum_wf n : n < 2 ^ 64 -> jwf (JNum (dec_print n)).
Proof. intros H. destruct (dec_print_spec n H) as (_ & A & B). now split. Qed.
Lemma dec_string_canon s : dec_string (canon (JStr s)) = Some (sanitize s).
Proof. reflexivity. Qed.

Lemma field_hit name k v t : bytes_eqb (lower k) (lower name) = true -> field name t = None ->
  field name ((k, v) :: t) = Some v.
Proof. intros H1 H2. cbn [field]. now rewrite H2, H1. Qed.
Lemma field_miss name k v t : bytes_eqb (lower k) (lower name) = false ->
  field name ((k, v) :: t) = field name t.
Proof. intros H. cbn [field]. rewrite H. now destruct (field name t). Qed.
Lemma field_or_hit {A} (dec : json -> option A) z name k v t :
  bytes_eqb (lower k) (lower name) = true -> field name t = None ->
  field_or dec z name ((k, v) :: t) = dec v.
Proof. intros H1 H2. unfold field_or. now rewrite field_hit. Qed.
Lemma field_or_miss {A} (dec : json -> option A) z name k v t :
  bytes_eqb (lower k) (lower name) = false ->
  field_or dec z name ((k, v) :: t) = field_or dec z name t.
Proof. intros H. unfold field_or. now rewrite field_miss. Qed.

Ltac fields :=
  repeat (first [ rewrite field_or_hit by reflexivity | rewrite field_or_miss by reflexivity ]).

Lemma sealed_object_roundtrip x : uuid_wf (so_oid x) ->
  unmarshal dec_sealed_object (print (enc_sealed_object x)) = Some x.
Proof.
  intros H. rewrite unmarshal_print by (cbn; repeat split; auto using jbytes_wf).
  unfold enc_sealed_object, dec_sealed_object. rewrite canon_members. cbn [members obind map cmember fst snd].
  unfold cmember. cbn [fst snd]. fields. rewrite !dec_bytes_jbytes, dec_uuid_canon by assumption.
  now destruct x.
Qed.
Lemma access_roundtrip x : unmarshal dec_access (print (enc_access x)) = Some (mkAccess (norm_set (a_groups x)) (a_dek x)).
Proof.
  rewrite unmarshal_print by (cbn; repeat split; auto using jbytes_wf, enc_set_wf).
  unfold enc_access, dec_access. rewrite canon_members. cbn [members obind map].
  unfold cmember. cbn [fst snd]. fields. rewrite dec_set_canon, dec_bytes_jbytes. reflexivity.
Qed.
Lemma sealed_access_roundtrip x : uuid_wf (sa_oid x) ->
  unmarshal dec_sealed_access (print (enc_sealed_access x)) = Some x.
Proof.
  intros H. rewrite unmarshal_print by (cbn; repeat split; auto using jbytes_wf).
  unfold enc_sealed_access, dec_sealed_access. rewrite canon_members. cbn [members obind map].
  unfold cmember. cbn [fst snd]. fields. rewrite !dec_bytes_jbytes, dec_uuid_canon by assumption.
  now destruct x.
Qed.
Lemma enc_time_wf t j : enc_time t = Some j -> jwf j.
Proof. unfold enc_time. destruct (time_text t); [|discriminate]. intros H. injection H as <-. exact I. Qed.
Lemma dec_time_canon t j : time_wf t -> enc_time t = Some j -> dec_time (canon j) = Some t.
Proof.
  unfold enc_time. intros W H. destruct (time_text t) as [s|] eqn:E; [|discriminate].
  injection H as <-. cbn. rewrite sanitize_valid by (eapply time_text_valid; eauto). eapply time_roundtrip; eauto.
Qed.
Lemma sealed_token_roundtrip x j : time_wf (st_exp x) -> enc_sealed_token x = Some j ->
  unmarshal dec_sealed_token (print j) = Some x.
Proof.
  intros W H. unfold enc_sealed_token in H. destruct (enc_time (st_exp x)) as [e|] eqn:E; [|discriminate].
  injection H as <-.
  rewrite unmarshal_print by (cbn; repeat split; eauto using jbytes_wf, enc_time_wf).
  unfold dec_sealed_token. rewrite canon_members. cbn [members obind map].
  unfold cmember. cbn [fst snd]. fields. rewrite !dec_bytes_jbytes.
  rewrite (dec_time_canon _ _ W E). now destruct x.
Qed.
Lemma node_roundtrip x : n_next x < 2 ^ 64 ->
  unmarshal dec_node (print (enc_node x)) = Some (mkNode (sanitize (n_id x)) (n_next x)).
Proof.
  intros H. rewrite unmarshal_print by (pose proof (jnum_wf _ H); cbn in *; tauto).
  unfold enc_node, dec_node. rewrite canon_members. cbn [members obind map].
  unfold cmember. cbn [fst snd]. fields. rewrite dec_string_canon, dec_uint64_canon by assumption. reflexivity.
Qed.
Lemma sealed_node_roundtrip x : unmarshal dec_sealed_node (print (enc_sealed_node x)) = Some x.
Proof.
  rewrite unmarshal_print by (cbn; repeat split; auto using jbytes_wf).
  unfold enc_sealed_node, dec_sealed_node. rewrite canon_members. cbn [members obind map].
  unfold cmember. cbn [fst snd]. fields. rewrite !dec_bytes_jbytes. now destruct x.
Qed.
Lemma user_roundtrip x : u_scopes x < 2 ^ 64 ->
  unmarshal dec_user (print (enc_user x)) = Some (mkUser (u_hash x) (u_scopes x) (norm_set (u_groups x))).
Proof.
  intros H.
  rewrite unmarshal_print by (pose proof (jnum_wf _ H); cbn in *; repeat split; try tauto; auto using jbytes_wf, enc_set_wf).
  unfold enc_user, dec_user. rewrite canon_members. cbn [members obind map].
  unfold cmember. cbn [fst snd]. fields. rewrite dec_bytes_jbytes, dec_uint64_canon, dec_set_canon by assumption. reflexivity.
Qed.
Lemma sealed_user_roundtrip x :
  unmarshal dec_sealed_user (print (enc_sealed_user x)) = Some (mkSealedUser (sanitize (su_uid x)) (su_ct x) (su_wk x)).
Proof.
  rewrite unmarshal_print by (cbn; repeat split; auto using jbytes_wf).
  unfold enc_sealed_user, dec_sealed_user. rewrite canon_members. cbn [members obind map].
  unfold cmember. cbn [fst snd]. fields. rewrite !dec_bytes_jbytes. reflexivity.
Qed.
Lemma group_roundtrip x : g_scopes x < 2 ^ 64 -> unmarshal dec_group (print (enc_group x)) = Some x.
Proof.
  intros H. rewrite unmarshal_print by (pose proof (jnum_wf _ H); cbn in *; tauto).
  unfold enc_group, dec_group. rewrite canon_members. cbn [members obind map].
  unfold cmember. cbn [fst snd]. fields. rewrite dec_uint64_canon by assumption. now destruct x.
Qed.
Lemma sealed_group_roundtrip x :
  unmarshal dec_sealed_group (print (enc_sealed_group x)) = Some (mkSealedGroup (sanitize (sg_gid x)) (sg_ct x) (sg_wk x)).
Proof.
  rewrite unmarshal_print by (cbn; repeat split; auto using jbytes_wf).
  unfold enc_sealed_group, dec_sealed_group. rewrite canon_members. cbn [members obind map].
  unfold cmember. cbn [fst snd]. fields. rewrite !dec_bytes_jbytes. reflexivity.
Qed.
