(** The KMAC object computes the one-shot KMAC of what was written since it was made or reset. *)
From Coq Require Import ZifyN ZifyNat.
From Verif Require Import Bytes Go Kmac KmacObj KmacObjSpec.
Local Open Scope bool_scope.
Local Open Scope nat_scope.

Arguments keccak_f : simpl never.
Arguments absorb_block : simpl never.
Arguments squeeze_block : simpl never.

(** ** Lengths *)
Lemma chi_length s : length (chi s) = 25.
Proof. unfold chi. rewrite map_length, seq_length. reflexivity. Qed.
Lemma iota_length rc s : length (iota rc s) = length s.
Proof. destruct s; reflexivity. Qed.
Lemma rounds_length rcs : forall s, rcs <> [] ->
  length (fold_left (fun s rc => iota rc (chi (rho_pi (theta s)))) rcs s) = 25.
Proof.
  induction rcs as [|rc rcs IH]; intros s H; [congruence|]. cbn [fold_left].
  destruct rcs as [|rc' rcs]; [cbn [fold_left]; rewrite iota_length; apply chi_length|].
  apply IH. discriminate.
Qed.
Lemma keccak_f_length s : length (keccak_f s) = 25.
Proof. apply rounds_length. discriminate. Qed.
Lemma absorb_block_length s b : length (absorb_block s b) = 25.
Proof. apply keccak_f_length. Qed.
Lemma concat_le_length l : length (concat (map (N_to_le 8) l)) = 8 * length l.
Proof. induction l as [|x l IH]; [reflexivity|]. cbn [map concat length]. rewrite app_length, IH. cbn [N_to_le length]. lia. Qed.
Lemma squeeze_block_length a : length a = 25 -> length (squeeze_block a) = 200.
Proof. intros H. unfold squeeze_block. rewrite concat_le_length, H. reflexivity. Qed.

(** ** What an absorbing sponge has taken in *)
Record holds (rate : nat) (d : sponge_obj) (m : bytes) : Prop := Holds {
  h_rate : sp_rate d = rate;
  h_dir : sp_squeezing d = false;
  h_short : length (sp_buf d) < rate;
  h_blocks : exists bs, m = concat bs ++ sp_buf d /\ List.Forall (fun b => length b = rate) bs /\
                        sp_a d = fold_left absorb_block bs (repeat 0%N 25) }.

Lemma holds_new rate : 0 < rate -> holds rate (Sponge (repeat 0%N 25) [] false rate) [].
Proof. intros H. split; cbn [sp_rate sp_squeezing sp_buf sp_a sp_permute km_hash km_tag_size km_init km_block cs_init cs_sponge length cs_write]; auto. exists []. repeat split. constructor. Qed.

Lemma split_app (m p : bytes) n : m ++ p = (m ++ firstn n p) ++ skipn n p.
Proof. now rewrite <- app_assoc, firstn_skipn. Qed.

Lemma write_loop_holds rate : 0 < rate -> forall fuel d m p, length p <= fuel ->
  holds rate d m -> holds rate (sp_write_loop fuel d p) (m ++ p).
Proof.
  intros Hr. induction fuel as [|f IH]; intros d m p L H.
  - destruct p; [|cbn in L; lia]. cbn. rewrite app_nil_r. exact H.
  - destruct p as [|x p0]; [cbn; rewrite app_nil_r; exact H|].
    remember (x :: p0) as p eqn:Ep. assert (Hp : 0 < length p) by (subst; cbn; lia).
    cbn [sp_write_loop]. rewrite Ep at 1. destruct H as [H1 H2 H3 (bs & H4 & H5 & H6)].
    rewrite H1. destruct (Nat.eqb_spec (length (sp_buf d)) 0) as [Z|Z]; cbn [andb];
      [destruct (Nat.leb_spec rate (length p)) as [G|G]|].
    + apply length_zero_iff_nil in Z.
      rewrite (split_app m p rate). apply IH; [rewrite skipn_length; lia|].
      split; cbn [sp_rate sp_squeezing sp_buf sp_a sp_permute km_hash km_tag_size km_init km_block cs_init cs_sponge length cs_write]; auto. rewrite Z. exists (bs ++ [firstn rate p]). split; [|split].
      * rewrite H4, Z, concat_app. cbn. now rewrite !app_nil_r.
      * apply List.Forall_app; split; auto. constructor; [|constructor]. rewrite firstn_length; lia.
      * rewrite fold_left_app. cbn [fold_left]. f_equal. exact H6.
    + clear Z G. cbn [sp_buf]. set (todo := Nat.min _ _).
      assert (T : 0 < todo <= length p) by (unfold todo; lia).
      rewrite (split_app m p todo). apply IH; [rewrite skipn_length; lia|].
      rewrite app_length, firstn_length.
      destruct (Nat.eqb_spec (length (sp_buf d) + Nat.min todo (length p)) rate) as [Q|Q].
      * split; cbn [sp_rate sp_squeezing sp_buf sp_a sp_permute km_hash km_tag_size km_init km_block cs_init cs_sponge length cs_write]; auto; try lia. exists (bs ++ [sp_buf d ++ firstn todo p]). split; [|split].
        -- rewrite H4, concat_app. cbn. now rewrite !app_nil_r, app_assoc.
        -- apply List.Forall_app; split; auto. constructor; [|constructor]. rewrite app_length, firstn_length; lia.
        -- rewrite fold_left_app. cbn [fold_left]. f_equal. exact H6.
      * split; cbn [sp_rate sp_squeezing sp_buf sp_a sp_permute km_hash km_tag_size km_init km_block cs_init cs_sponge length cs_write]; auto; [rewrite app_length, firstn_length; unfold todo in *; lia|].
        exists bs. split; [now rewrite H4, app_assoc|auto].
    + cbn [sp_buf]. set (todo := Nat.min _ _).
      assert (T : 0 < todo <= length p) by (unfold todo; lia).
      rewrite (split_app m p todo). apply IH; [rewrite skipn_length; lia|].
      rewrite app_length, firstn_length.
      destruct (Nat.eqb_spec (length (sp_buf d) + Nat.min todo (length p)) rate) as [Q|Q].
      * split; cbn [sp_rate sp_squeezing sp_buf sp_a sp_permute km_hash km_tag_size km_init km_block cs_init cs_sponge length cs_write]; auto; try lia. exists (bs ++ [sp_buf d ++ firstn todo p]). split; [|split].
        -- rewrite H4, concat_app. cbn. now rewrite !app_nil_r, app_assoc.
        -- apply List.Forall_app; split; auto. constructor; [|constructor]. rewrite app_length, firstn_length; lia.
        -- rewrite fold_left_app. cbn [fold_left]. f_equal. exact H6.
      * split; cbn [sp_rate sp_squeezing sp_buf sp_a sp_permute km_hash km_tag_size km_init km_block cs_init cs_sponge length cs_write]; auto; [rewrite app_length, firstn_length; unfold todo in *; lia|].
        exists bs. split; [now rewrite H4, app_assoc|auto].
Qed.
Lemma write_holds rate d m p : 0 < rate -> holds rate d m ->
  exists d', sp_write d p = Ok d' /\ holds rate d' (m ++ p).
Proof.
  intros Hr H. unfold sp_write. rewrite (h_dir _ _ _ H). eexists. split; [reflexivity|].
  now apply write_loop_holds.
Qed.

(** ** Padding *)
Lemma absorb_blocks rate : 0 < rate -> forall bs fuel s, List.Forall (fun b => length b = rate) bs ->
  length (concat bs) <= fuel -> absorb fuel rate s (concat bs) = fold_left absorb_block bs s.
Proof.
  intros Hr. induction bs as [|b bs IH]; intros fuel s F L.
  - destruct fuel; reflexivity.
  - inversion F as [|? ? Lb Fb]; subst. cbn [concat fold_left] in *. rewrite app_length in L.
    destruct fuel as [|f]; [lia|]. cbn [absorb].
    destruct (b ++ concat bs) eqn:E; [apply (f_equal (@length byte)) in E; rewrite app_length in E; cbn in E; lia|].
    rewrite <- E. rewrite firstn_app, firstn_all, Nat.sub_diag, firstn_O, app_nil_r.
    rewrite skipn_app, skipn_all, Nat.sub_diag, skipn_O. cbn [app]. apply IH; [exact Fb|lia].
Qed.
Lemma concat_blocks_length rate (bs : list bytes) : List.Forall (fun b => length b = rate) bs ->
  length (concat bs) = length bs * rate.
Proof. induction 1 as [|b bs Hb _ IH]; [reflexivity|]. cbn [concat length]. rewrite app_length, IH, Hb. lia. Qed.

Lemma flip_last_snoc l b : flip_last (l ++ [b]) = l ++ [Nb (N.lxor (bN b) 128)].
Proof.
  unfold flip_last. rewrite app_length. cbn [length]. replace (length l + 1 - 1) with (length l) by lia.
  rewrite firstn_app, firstn_all, Nat.sub_diag, firstn_O, app_nil_r.
  rewrite skipn_app, skipn_all, Nat.sub_diag, skipn_O. reflexivity.
Qed.
Lemma zeros_snoc n : zeros (S n) = zeros n ++ [x00].
Proof. unfold zeros. induction n as [|n IH]; [reflexivity|]. cbn [repeat app] in *. now rewrite IH at 1. Qed.
(** The padded message is the whole blocks and then the block padAndPermute makes. *)
Lemma pad_blocks rate (bs : list bytes) buf : List.Forall (fun b => length b = rate) bs -> length buf < rate ->
  exists blk, sponge_pad rate x04 (concat bs ++ buf) = concat (bs ++ [blk]) /\ length blk = rate /\
    flip_last ((buf ++ [x04]) ++ zeros (rate - length (buf ++ [x04]))) = blk.
Proof.
  intros F L. eexists. split; [|split; [|reflexivity]].
  - unfold sponge_pad. rewrite concat_app. cbn [concat]. rewrite app_nil_r.
    replace (length (concat bs ++ buf) mod rate) with (length buf).
    2:{ rewrite app_length, (concat_blocks_length rate bs F), Nat.add_comm, Nat.mod_add by lia.
        symmetry. now apply Nat.mod_small. }
    rewrite app_length. cbn [length].
    destruct (rate - 1 - length buf) as [|z'] eqn:E.
    + replace (rate - (length buf + 1)) with 0 by lia. cbn [zeros repeat]. rewrite app_nil_r, flip_last_snoc.
      rewrite <- app_assoc. reflexivity.
    + replace (rate - (length buf + 1)) with (S z') by lia. rewrite zeros_snoc, (app_assoc (buf ++ [x04])), flip_last_snoc.
      rewrite <- !app_assoc. reflexivity.
  - rewrite app_length. cbn [length]. destruct (rate - (length buf + 1)) as [|z'] eqn:E.
    + cbn [zeros repeat]. rewrite app_nil_r, flip_last_snoc, app_length. cbn [length]. lia.
    + rewrite zeros_snoc, (app_assoc (buf ++ [x04])), flip_last_snoc, !app_length, zeros_length. cbn [length]. lia.
Qed.
Definition final (rate : nat) (m : bytes) : list N :=
  let p := sponge_pad rate x04 m in absorb (length p) rate (repeat 0%N 25) p.
Lemma pad_holds rate d m : 0 < rate -> holds rate d m ->
  sp_pad d = Sponge (final rate m) (firstn rate (squeeze_block (final rate m))) true rate.
Proof.
  intros Hr [H1 H2 H3 (bs & H4 & H5 & H6)]. unfold sp_pad. rewrite H1.
  destruct (pad_blocks rate bs (sp_buf d) H5 H3) as (blk & E1 & E2 & E3). rewrite E3.
  assert (E : absorb_block (sp_a d) blk = final rate m).
  { unfold final. rewrite H4, E1, absorb_blocks; [| exact Hr | | reflexivity].
    - rewrite fold_left_app. cbn [fold_left]. f_equal. exact H6.
    - apply List.Forall_app. split; [exact H5|]. constructor; [exact E2|constructor]. }
  rewrite E. reflexivity.
Qed.
Lemma final_length rate m : 0 < rate -> length (final rate m) = 25.
Proof.
  intros Hr. unfold final. generalize (repeat_length 0%N 25). generalize (repeat 0%N 25).
  intros s Hs. generalize (length (sponge_pad rate x04 m)). intros fuel. revert s Hs.
  generalize (sponge_pad rate x04 m). induction fuel as [|f IH]; intros p s Hs; [exact Hs|].
  cbn [absorb]. destruct p; [exact Hs|]. apply IH. apply absorb_block_length.
Qed.

(** ** Reading *)
Lemma firstn_len_block rate a : rate <= 200 -> length a = 25 -> length (firstn rate (squeeze_block a)) = rate.
Proof. intros H L. rewrite firstn_length, squeeze_block_length by exact L. lia. Qed.
Lemma squeeze_length rate : rate <= 200 -> forall fuel a, length a = 25 -> length (squeeze fuel rate a) = fuel * rate.
Proof.
  intros H. induction fuel as [|f IH]; intros a L; [reflexivity|]. cbn [squeeze].
  rewrite app_length, IH, firstn_len_block by (auto; apply keccak_f_length). lia.
Qed.
(** A squeezing sponge whose unread part of the current block is [sp_buf d] yields that part and then the
    blocks that follow. *)
Lemma read_loop_spec rate : 0 < rate -> rate <= 200 -> forall fuel n d g,
  sp_rate d = rate -> length (sp_a d) = 25 -> 0 < length (sp_buf d) -> n <= fuel ->
  n <= length (sp_buf d) + g * rate ->
  fst (sp_read_loop fuel d n) = firstn n (sp_buf d ++ squeeze g rate (keccak_f (sp_a d))).
Proof.
  intros Hr Hr2. induction fuel as [|f IH]; intros n d g H1 H2 H3 L G.
  - destruct n; [|lia]. cbn. now rewrite firstn_O.
  - destruct n as [|n0]; [cbn; now rewrite firstn_O|].
    remember (S n0) as n eqn:En. assert (Hn : 0 < n) by lia.
    cbn [sp_read_loop]. rewrite En at 1. set (k := Nat.min n (length (sp_buf d))). cbn [sp_buf].
    assert (Hk : 0 < k <= n) by (unfold k; lia).
    destruct (sp_read_loop f _ (n - k)) as [out e] eqn:E. apply (f_equal fst) in E. cbn [fst] in E |- *.
    subst out. rewrite firstn_app.
    destruct (Nat.le_gt_cases (length (sp_buf d)) n) as [Q|Q].
    + assert (K : k = length (sp_buf d)) by (unfold k; lia).
      rewrite K, skipn_all. cbn [length Nat.eqb]. rewrite !(firstn_all2 (sp_buf d)) by lia. f_equal.
      destruct g as [|g].
      * cbn [squeeze]. rewrite firstn_nil. replace (n - length (sp_buf d)) with 0 by lia. destruct f; reflexivity.
      * rewrite IH with (g := g).
        -- cbn [sp_permute sp_squeezing sp_buf sp_rate sp_a squeeze]. now rewrite H1.
        -- exact H1.
        -- cbn. apply keccak_f_length.
        -- cbn. rewrite H1, firstn_len_block by (auto; apply keccak_f_length). exact Hr.
        -- lia.
        -- cbn [sp_permute sp_squeezing sp_buf sp_rate sp_a]. rewrite H1, firstn_len_block by (auto; apply keccak_f_length). lia.
    + assert (K : k = n) by (unfold k; lia). rewrite K. replace (n - n) with 0 by lia.
      replace (n - length (sp_buf d)) with 0 by lia. rewrite firstn_O.
      destruct f; reflexivity.
Qed.
Lemma read_holds rate d m n : 0 < rate -> rate <= 200 -> holds rate d m ->
  fst (sp_read d n) = sponge rate x04 m n.
Proof.
  intros Hr Hr2 H. unfold sp_read. rewrite (h_dir _ _ _ H), (pad_holds rate d m Hr H).
  rewrite read_loop_spec with (rate := rate) (g := n / rate); cbn [sp_rate sp_a sp_buf]; auto.
  - apply final_length, Hr.
  - rewrite firstn_len_block by (auto; apply final_length, Hr). exact Hr.
  - rewrite firstn_len_block by (auto; apply final_length, Hr).
    pose proof (Nat.mod_upper_bound n rate ltac:(lia)). pose proof (Nat.div_mod n rate ltac:(lia)). nia.
Qed.

(** ** The object *)
Definition pre (rate : nat) (key S : bytes) : bytes :=
  cshake_prefix S rate ++ bytepad (leftEncode (8 * blen key) ++ key) rate.
Record object (rate : nat) (key : bytes) (tl : nat) (S : bytes) (k : kmac_obj) (m : bytes) : Prop := Object {
  o_hash : holds rate (cs_sponge (km_hash k)) (pre rate key S ++ m);
  o_cs : cs_init (km_hash k) = encode_string (str "KMAC") ++ encode_string S;
  o_tl : km_tag_size k = tl;
  o_init : km_init k = leftEncode (8 * blen key) ++ key;
  o_block : km_block k = rate }.

Lemma cs_write_holds rate c m p : 0 < rate -> holds rate (cs_sponge c) m ->
  exists c', cs_write c p = Ok c' /\ holds rate (cs_sponge c') (m ++ p) /\ cs_init c' = cs_init c.
Proof.
  intros Hr H. destruct (write_holds rate _ m p Hr H) as (d & E & H').
  exists (CShake d (cs_init c)). unfold cs_write. rewrite E. auto.
Qed.
Lemma cs_reset_holds rate c S : 0 < rate -> sp_rate (cs_sponge c) = rate ->
  cs_init c = encode_string (str "KMAC") ++ encode_string S ->
  exists c', cs_reset c = Ok c' /\ holds rate (cs_sponge c') (cshake_prefix S rate) /\ cs_init c' = cs_init c.
Proof.
  intros Hr H1 H2. unfold cs_reset. rewrite H1.
  destruct (cs_write_holds rate (CShake (Sponge (repeat 0%N 25) [] false rate) (cs_init c)) [] (bytepad (cs_init c) rate) Hr) as (c' & E & H & I).
  { apply holds_new, Hr. }
  exists c'. split; [exact E|]. split; [|exact I]. rewrite H2 in H. exact H.
Qed.
Lemma km_write_object rate key tl S k m p : 0 < rate -> object rate key tl S k m ->
  exists k', km_write k p = Ok k' /\ object rate key tl S k' (m ++ p).
Proof.
  intros Hr [H1 H2 H3 H4 H5]. destruct (cs_write_holds rate _ _ p Hr H1) as (c & E & H & I).
  eexists. unfold km_write. rewrite E. split; [reflexivity|]. split; cbn [sp_rate sp_squeezing sp_buf sp_a sp_permute km_hash km_tag_size km_init km_block cs_init cs_sponge length cs_write]; auto.
  - now rewrite app_assoc.
  - now rewrite I.
Qed.
Lemma km_reset_object rate key tl S k m : 0 < rate -> object rate key tl S k m ->
  exists k', km_reset k = Ok k' /\ object rate key tl S k' [].
Proof.
  intros Hr [H1 H2 H3 H4 H5]. unfold km_reset.
  destruct (cs_reset_holds rate (km_hash k) S Hr (h_rate _ _ _ H1) H2) as (c & E & H & I). rewrite E.
  unfold km_write. cbn [km_hash km_block_size km_block km_init km_tag_size].
  unfold km_block_size. rewrite H4, H5.
  destruct (cs_write_holds rate c _ (bytepad (leftEncode (8 * blen key) ++ key) rate) Hr H) as (c' & E' & H' & I').
  rewrite E'. eexists. split; [reflexivity|]. split; cbn [sp_rate sp_squeezing sp_buf sp_a sp_permute km_hash km_tag_size km_init km_block cs_init cs_sponge length cs_write]; auto.
  - rewrite app_nil_r. exact H'.
  - now rewrite I', I.
Qed.
Lemma km_sum_object rate key tl S k m b : 0 < rate -> rate <= 200 -> object rate key tl S k m ->
  km_sum k b = Ok (b ++ kmac rate key tl S m, k).
Proof.
  intros Hr Hr2 [H1 H2 H3 H4 H5]. unfold km_sum. rewrite H3.
  destruct (cs_write_holds rate (km_hash k) _ (rightEncode (8 * N.of_nat tl)) Hr H1) as (c & E & H & I).
  rewrite E. rewrite (read_holds rate _ _ tl Hr Hr2 H). do 3 f_equal. unfold kmac, kmac_input, pre.
  now rewrite <- !app_assoc.
Qed.
Lemma new_kmac_object rate key tl S : 0 < rate -> 8 <= tl ->
  exists k, match new_cshake S rate with
            | Ok c => new_kmac key tl c rate | Err e => Err e | Panic => Panic end = Ok k /\ object rate key tl S k [].
Proof.
  intros Hr T. unfold new_cshake.
  destruct (cs_reset_holds rate (CShake (Sponge (repeat 0%N 25) [] false rate) (encode_string (str "KMAC") ++ encode_string S)) S Hr eq_refl eq_refl) as (c & E & H & I).
  rewrite E. unfold new_kmac. replace (Nat.ltb tl 8) with false by (symmetry; apply Nat.ltb_ge; exact T).
  unfold km_write. cbn [km_hash km_block_size km_block km_init km_tag_size].
  destruct (cs_write_holds rate c _ (bytepad (leftEncode (8 * blen key) ++ key) rate) Hr H) as (c' & E' & H' & I').
  rewrite E'. eexists. split; [reflexivity|]. split; cbn [sp_rate sp_squeezing sp_buf sp_a sp_permute km_hash km_tag_size km_init km_block cs_init cs_sponge length cs_write]; auto.
  - rewrite app_nil_r. exact H'.
  - now rewrite I', I.
Qed.

Lemma km_run_object rate key tl S : 0 < rate -> rate <= 200 -> forall os k m, object rate key tl S k m ->
  km_run k os = Ok (answers (kmac rate key tl S) tl rate m os).
Proof.
  intros Hr Hr2. induction os as [|o os IH]; intros k m H; [reflexivity|]. cbn [km_run answers].
  destruct o as [p|b| | |]; cbn [km_do].
  - destruct (km_write_object rate key tl S k m p Hr H) as (k' & E & H'). rewrite E, (IH _ _ H'). reflexivity.
  - rewrite (km_sum_object rate key tl S k m b Hr Hr2 H), (IH _ _ H). reflexivity.
  - destruct (km_reset_object rate key tl S k m Hr H) as (k' & E & H'). rewrite E, (IH _ _ H'). reflexivity.
  - unfold km_size. rewrite (o_tl _ _ _ _ _ _ H), (IH _ _ H). reflexivity.
  - unfold km_block_size. rewrite (o_block _ _ _ _ _ _ H), (IH _ _ H). reflexivity.
Qed.

Lemma object256 key tl S os : (32 <= blen key)%N -> 8 <= tl ->
  exists k, new_kmac256 key tl S = Ok k /\ km_run k os = Ok (answers (kmac 136 key tl S) tl 136 [] os).
Proof.
  intros K T. destruct (new_kmac_object 136 key tl S ltac:(lia) T) as (k & E & H). exists k. split.
  - unfold new_kmac256. replace (blen key <? 32)%N with false by (symmetry; apply N.ltb_ge; exact K). exact E.
  - apply km_run_object; [lia|lia|exact H].
Qed.
Lemma object128 key tl S os : (16 <= blen key)%N -> 8 <= tl ->
  exists k, new_kmac128 key tl S = Ok k /\ km_run k os = Ok (answers (kmac 168 key tl S) tl 168 [] os).
Proof.
  intros K T. destruct (new_kmac_object 168 key tl S ltac:(lia) T) as (k & E & H). exists k. split.
  - unfold new_kmac128. replace (blen key <? 16)%N with false by (symmetry; apply N.ltb_ge; exact K). exact E.
  - apply km_run_object; [lia|lia|exact H].
Qed.
Lemma cs_write_panics rate c m p : 0 < rate -> holds rate (cs_sponge c) m -> cs_write c p <> Panic.
Proof. intros Hr H. destruct (cs_write_holds rate c m p Hr H) as (c' & E & _). congruence. Qed.
Lemma refused256 key tl S : (blen key < 32)%N \/ tl < 8 -> new_kmac256 key tl S = Panic.
Proof.
  intros H. unfold new_kmac256. destruct (N.ltb_spec (blen key) 32) as [G|G]; [reflexivity|].
  destruct H as [H|H]; [lia|]. unfold new_cshake.
  destruct (cs_reset_holds 136 (CShake (Sponge (repeat 0%N 25) [] false 136) (encode_string (str "KMAC") ++ encode_string S)) S ltac:(lia) eq_refl eq_refl) as (c & E & _).
  rewrite E. unfold new_kmac. replace (Nat.ltb tl 8) with true by (symmetry; apply Nat.ltb_lt; exact H). reflexivity.
Qed.
Lemma refused128 key tl S : (blen key < 16)%N \/ tl < 8 -> new_kmac128 key tl S = Panic.
Proof.
  intros H. unfold new_kmac128. destruct (N.ltb_spec (blen key) 16) as [G|G]; [reflexivity|].
  destruct H as [H|H]; [lia|]. unfold new_cshake.
  destruct (cs_reset_holds 168 (CShake (Sponge (repeat 0%N 25) [] false 168) (encode_string (str "KMAC") ++ encode_string S)) S ltac:(lia) eq_refl eq_refl) as (c & E & _).
  rewrite E. unfold new_kmac. replace (Nat.ltb tl 8) with true by (symmetry; apply Nat.ltb_lt; exact H). reflexivity.
Qed.

(** ** The two users of the object *)
Lemma kdf_writes_object rate key tl S : 0 < rate -> forall context k m, object rate key tl S k m ->
  exists k', kdf_writes k context = Ok k' /\ object rate key tl S k' (m ++ concat context).
Proof.
  intros Hr. induction context as [|c cs IH]; intros k m H.
  - exists k. cbn. rewrite app_nil_r. auto.
  - destruct (km_write_object rate key tl S k m c Hr H) as (k1 & E & H1). cbn [kdf_writes concat]. rewrite E.
    rewrite app_assoc. apply IH. exact H1.
Qed.
Lemma kmackdf_calls_eq size kik label context : kmackdf_calls size kik label context = kmackdf size kik label context.
Proof.
  unfold kmackdf_calls, kmackdf, kmac256.
  destruct (N.ltb_spec (blen kik) 32) as [G|G]; [unfold new_kmac256; replace (blen kik <? 32)%N with true by (symmetry; now apply N.ltb_lt); reflexivity|].
  destruct (Nat.ltb_spec size 8) as [T|T]; [rewrite refused256 by auto; reflexivity|].
  destruct (new_kmac_object 136 kik size label ltac:(lia) T) as (k & E & H).
  unfold new_kmac256. replace (blen kik <? 32)%N with false by (symmetry; apply N.ltb_ge; exact G). rewrite E.
  destruct (kdf_writes_object 136 kik size label ltac:(lia) context k [] H) as (k' & E' & H'). rewrite E'.
  rewrite (km_sum_object 136 kik size label k' _ [] ltac:(lia) ltac:(lia) H'). reflexivity.
Qed.
Lemma tag_calls_eq key data : tag_calls key data = kmac256 key 32 data [].
Proof.
  transitivity (kmackdf_calls 32 key data []); [unfold tag_calls, kmackdf_calls; destruct (new_kmac256 key 32 data); reflexivity|].
  rewrite kmackdf_calls_eq. reflexivity.
Qed.
