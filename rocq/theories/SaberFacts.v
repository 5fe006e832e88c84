(** * SaberFacts: invariance under serialisation, the constant-time comparison, sizes and
    the centred binomial sampler. *)
From Coq Require Import ZArith List Lia Bool.
From Verif Require Import Base Bits SaberPoly SaberCodec SaberCodec2 SaberCodec3 Ring SaberRing SaberKem
  SaberVec SaberNoise SaberSpec SaberDec SaberDec2.
Import ListNotations.
Open Scope Z_scope.
Local Opaque star E pmul padd pzero.

(** ** Encryption depends on the key only through its encoding *)
Lemma recon_data_gen_mod : forall I p p', length p = DEG -> length p' = DEG ->
  (forall k, (k < DEG)%nat -> at_ p k mod 1024 = at_ p' k mod 1024) ->
  recon_data_gen I p = recon_data_gen I p'.
Proof.
  intros I p p' L L' H. unfold recon_data_gen. f_equal. f_equal. unfold reduce.
  apply poly_ext; [rewrite !map_length; congruence|]. rewrite map_length, L. intros k Hk.
  rewrite !map_at by lia. change (P - 1) with (2 ^ 10 - 1). rewrite !land_mask_mod by lia.
  apply H. exact Hk.
Qed.

Lemma enc_pk_mod : forall h I m r pk, param_set I -> wf_pk I pk ->
  indcpa_enc h I m r {| pk_vec := vmap_mod 1024 (pk_vec pk); pk_seed := pk_seed pk |} =
  indcpa_enc h I m r pk.
Proof.
  intros h I m r pk HI [Hv _]. unfold indcpa_enc. cbn [pk_seed pk_vec]. f_equal.
  assert (L : forall v, length (padd (from_msg m) (vmul v (gen_secret h I r))) = DEG).
  { intro v. apply padd_wf; [apply from_msg_length|apply vmul_wf]. }
  apply recon_data_gen_mod; try apply L. intros k Hk.
  rewrite !padd_at by (auto; try apply from_msg_length; apply vmul_wf).
  rewrite !u16_mod by (try lia; apply d10).
  rewrite <- Zplus_mod_idemp_r. symmetry. rewrite <- Zplus_mod_idemp_r. symmetry. f_equal. f_equal.
  apply (vmul_cong (sK I)); auto; try lia; try apply d10; try (apply gen_secret_wf; exact HI).
  - apply vmap_mod_wf; [lia|exact Hv].
  - intros j Hj. apply (V_vmap_mod (sK I)); auto; try lia. exists 1. reflexivity.
  - intros. apply cong_refl.
Qed.

Lemma pk_to_bytes_mod : forall I pk, wf_pk I pk ->
  pk_to_bytes {| pk_vec := vmap_mod 1024 (pk_vec pk); pk_seed := pk_seed pk |} = pk_to_bytes pk.
Proof.
  intros I pk [Hv _]. unfold pk_to_bytes. cbn [pk_vec pk_seed].
  rewrite (read_mod_p_mod (sK I)) by exact Hv. reflexivity.
Qed.

(** ** Decryption depends on the secret only modulo 2^13 (indeed 2^10) *)
Lemma recon_coeff_mod : forall I h v v', param_set I -> 0 <= h < 64 -> v mod 1024 = v' mod 1024 ->
  recon_coeff I h v = recon_coeff I h v'.
Proof.
  intros I h v v' HI Hh H. rewrite !recon_coeff_spec by auto. f_equal.
  generalize (h * 2 ^ cexp I) (2 ^ (cexp I - 1)). intros x y.
  replace (v - x + 256 - y) with (v + (256 - x - y)) by lia.
  replace (v' - x + 256 - y) with (v' + (256 - x - y)) by lia.
  rewrite <- Zplus_mod_idemp_l, H, Zplus_mod_idemp_l. reflexivity.
Qed.

(** Unpacked hints are below 64 for every byte string. *)
Lemma chunks_len : forall {A} n (l : list A), (0 < n)%nat -> Forall (fun c => length c = n) (chunks_exact n l).
Proof.
  intros A n l Hn. unfold chunks_exact. generalize (length l) as f. intro f. revert l.
  induction f as [|f IH]; intro l; cbn; auto.
  destruct (n <=? length l)%nat eqn:E; auto. apply Nat.leb_le in E.
  constructor; [rewrite firstn_length; lia|apply IH].
Qed.
Lemma chunks_forall : forall {A} (Q : A -> Prop) n l, Forall Q l -> Forall (Forall Q) (chunks_exact n l).
Proof.
  intros A Q n l. unfold chunks_exact. generalize (length l) as f. intro f. revert l.
  induction f as [|f IH]; intros l H; cbn; auto.
  destruct (n <=? length l)%nat; auto. rewrite <- (firstn_skipn n l), Forall_app in H.
  destruct H. constructor; auto.
Qed.

Definition small64 (x : Z) : Prop := 0 <= x < 64.
Lemma small64_land : forall x m, small64 m -> small64 (x .& m).
Proof. intros x m Hm. apply (land_bound x m 6); auto. lia. Qed.
Lemma small64_lor : forall x y, small64 x -> small64 y -> small64 (x .| y).
Proof. intros x y Hx Hy. apply (lor_bound x y 6); auto. lia. Qed.
Lemma small64_shr : forall x, is_byte x -> small64 (x >> 2).
Proof. intros x H. unfold small64, is_byte in *. rewrite Z.shiftr_div_pow2 by lia. change (2 ^ 2) with 4. Z.div_mod_to_equations. lia. Qed.
Lemma small64_shr4 : forall x, is_byte x -> small64 (x >> 4).
Proof. intros x H. unfold small64, is_byte in *. rewrite Z.shiftr_div_pow2 by lia. change (2 ^ 4) with 16. Z.div_mod_to_equations. lia. Qed.
Lemma small64_shl : forall x m k, 0 <= m -> 0 <= k -> 0 <= m * 2 ^ k < 64 -> small64 (shl8 (x .& m) k).
Proof.
  intros x m k Hm Hk H. unfold shl8.
  assert (B : 0 <= x .& m <= m).
  { split; [apply Z.land_nonneg; lia|]. rewrite Z.land_comm. 
    destruct (Z.eq_dec m 0) as [->|N]; [rewrite Z.land_0_l; lia|].
    apply Z.ldiff_le; [lia|]. apply Z.bits_inj'. intros n Hn.
    rewrite Z.ldiff_spec, Z.land_spec, Z.bits_0. destruct (Z.testbit m n), (Z.testbit x n); reflexivity. }
  rewrite Z.shiftl_mul_pow2 by exact Hk. assert (0 < 2 ^ k) by (apply Z.pow_pos_nonneg; lia).
  unfold small64. assert (0 <= (x .& m) * 2 ^ k < 64) by nia.
  unfold u8. rewrite Z.mod_small by lia. assumption.
Qed.

Lemma recon_unpack_small : forall I b, param_set I -> is_bytes b ->
  Forall small64 (recon_unpack I b).
Proof.
  intros I b HI Hb.
  assert (F : forall l, Forall small64 l -> Forall small64 (fill_poly l)).
  { intros l H. unfold fill_poly. rewrite <- (firstn_skipn DEG (l ++ repeat 0 DEG)) in *.
    assert (G : Forall small64 (l ++ repeat 0 DEG)).
    { apply Forall_app. split; auto. apply Forall_forall. intros x Hx. apply repeat_spec in Hx.
      subst. unfold small64. lia. }
    rewrite <- (firstn_skipn DEG (l ++ repeat 0 DEG)), Forall_app in G. rewrite firstn_skipn. apply G. }
  destruct HI; cbn [recon_unpack LightSaber Saber FireSaber].
  - apply F. apply (Forall_flat_map (fun c => is_bytes c)).
    + intros c Hc. unfold unpack3.
      repeat first [apply Forall_cons | apply Forall_nil]; repeat first [apply small64_lor | apply small64_shl; [lia|lia|vm_compute; split; congruence]
        | apply small64_land; unfold small64; lia].
    + apply chunks_forall. exact Hb.
  - apply F. apply (Forall_flat_map is_byte); [|exact Hb]. intros x Hx. unfold unpack4.
    apply Forall_cons; [apply small64_land; unfold small64; lia|].
    apply Forall_cons; [apply small64_shr4; exact Hx|apply Forall_nil].
  - apply F. apply (Forall_flat_map (fun c => is_bytes c)).
    + intros c Hc. unfold unpack6.
      repeat first [apply Forall_cons | apply Forall_nil]; repeat first [apply small64_lor | apply small64_shl; [lia|lia|vm_compute; split; congruence]
        | apply small64_land; unfold small64; lia | apply small64_shr; apply at_byte; exact Hc].
    + apply chunks_forall. exact Hb.
Qed.

Lemma recon_mod : forall I rec v v', param_set I -> is_bytes rec ->
  length v = DEG -> length v' = DEG ->
  (forall k, (k < DEG)%nat -> at_ v k mod 1024 = at_ v' k mod 1024) ->
  recon I rec v = recon I rec v'.
Proof.
  intros I rec v v' HI Hr L L' H. unfold recon.
  pose proof (recon_unpack_small I rec HI Hr) as S.
  apply poly_ext; [rewrite !map2_length; congruence|].
  intros k Hk. rewrite map2_length, L in Hk. rewrite !map2_at by lia.
  apply recon_coeff_mod; auto.
  - rewrite Forall_forall in S. apply S. apply nth_In. lia.
  - apply H. lia.
Qed.

Lemma dec_sk_mod : forall I sk ct, param_set I -> wf_vec (sK I) (sk_vec sk) ->
  length ct = BYTES_CCA_DEC I -> is_bytes ct ->
  indcpa_dec I {| sk_vec := vmap_mod 8192 (sk_vec sk) |} ct = indcpa_dec I sk ct.
Proof.
  intros I sk ct HI Hs HL Hb. unfold indcpa_dec. cbn [sk_vec]. f_equal.
  apply recon_mod; auto; try apply vmul_wf; [apply is_bytes_skipn; exact Hb|].
  intros k Hk.
  assert (W : wf_vec (sK I) (from_bytes_mod_p I (firstn (POLYVECCOMPRESSEDBYTES I) ct))).
  { apply from_mod_p_wf; [|apply is_bytes_firstn; exact Hb].
    rewrite firstn_length, HL. unfold BYTES_CCA_DEC. rewrite (polyvec_size I HI). lia. }
  apply (vmul_cong (sK I)); auto; try lia; try apply d10.
  - apply vmap_mod_wf; [lia|exact Hs].
  - intros. apply cong_refl.
  - intros j Hj. apply (V_vmap_mod (sK I)); auto; try lia. apply d10_13.
Qed.

(** ** Sizes *)
Lemma recon_pack_length : forall I p, param_set I -> length p = DEG ->
  length (recon_pack I p) = RECONBYTES_KEM I /\ is_bytes (recon_pack I p).
Proof.
  intros I p HI L. destruct HI; cbn [recon_pack LightSaber Saber FireSaber]; split.
  - apply read3_length; exact L. - apply read3_bytes.
  - apply read4_length; exact L. - apply read4_bytes.
  - apply read6_length; exact L. - apply read6_bytes.
Qed.

Lemma enc_length : forall h I m r pk, param_set I ->
  length (indcpa_enc h I m r pk) = BYTES_CCA_DEC I /\ is_bytes (indcpa_enc h I m r pk).
Proof.
  intros h I m r pk HI. unfold indcpa_enc. rewrite rnd_vec_eq.
  set (mp := padd _ _). assert (L : length mp = DEG)
    by (apply padd_wf; [apply from_msg_length|apply vmul_wf]).
  destruct (recon_pack_length I (pshr (reduce P mp) (EPS_P - sRECON I - 1)) HI) as [L1 B1].
  { unfold pshr, reduce. rewrite !map_length. exact L. }
  split.
  - rewrite app_length. unfold recon_data_gen. rewrite L1.
    rewrite (read_mod_p_length (sK I)) by (apply rnd_vec_wf, mat_mul_transpose_wf, gen_matrix_wf).
    unfold BYTES_CCA_DEC. rewrite polyvec_size by exact HI. reflexivity.
  - apply is_bytes_app. split; [apply read_mod_p_bytes|exact B1].
Qed.

Lemma dec_length : forall I sk ct, param_set I -> is_bytes ct ->
  length (indcpa_dec I sk ct) = MESSAGEBYTES /\ is_bytes (indcpa_dec I sk ct).
Proof.
  intros I sk ct HI Hb. unfold indcpa_dec. split; [|apply read_msg_bytes].
  apply read_msg_length. unfold recon. rewrite map2_length.
  assert (L1 : forall b, length (recon_unpack I b) = DEG)
    by (intro b; destruct HI; apply fill_poly_length).
  rewrite L1. rewrite (proj1 (vmul_wf _ _)). apply Nat.min_id.
Qed.

Lemma sha3_256_length : forall h x, length (sha3_256 h x) = 32%nat /\ is_bytes (sha3_256 h x).
Proof. intros. split; [apply draw_length|apply draw_bytes]. Qed.
Lemma sha3_512_length : forall h x, length (sha3_512 h x) = 64%nat /\ is_bytes (sha3_512 h x).
Proof. intros. split; [apply draw_length|apply draw_bytes]. Qed.

(** ** Constant-time comparison and selection *)
Lemma lxor_eq0 : forall x y, Z.lxor x y = 0 <-> x = y.
Proof. intros. apply Z.lxor_eq_0_iff. Qed.
Lemma u8_eq_mask_spec : forall x y, is_byte x -> is_byte y ->
  u8_eq_mask x y = if x =? y then 255 else 0.
Proof.
  intros x y Hx Hy. pose proof (lxor_byte x y Hx Hy) as Hz.
  assert (G : forall z, is_byte z -> (u8 (((z .| u8 (- z)) >> 7) - 1) =? if z =? 0 then 255 else 0) = true).
  { apply byte_forall. vm_compute. reflexivity. }
  unfold u8_eq_mask. specialize (G _ Hz). apply Z.eqb_eq in G. rewrite G.
  destruct (Z.eqb_spec (Z.lxor x y) 0) as [E|E], (Z.eqb_spec x y) as [F|F]; auto.
  - apply (proj1 (lxor_eq0 x y)) in E. contradiction.
  - apply (proj2 (lxor_eq0 x y)) in F. contradiction.
Qed.
Lemma bytes_eq_mask_acc : forall a b acc, is_bytes a -> is_bytes b -> length a = length b ->
  acc = 255 \/ acc = 0 ->
  fold_left (fun acc '(x, y) => acc .& u8_eq_mask x y) (combine a b) acc =
  if beq a b then acc else 0.
Proof.
  induction a as [|x a IH]; intros [|y b] acc Ha Hb HL Hacc; cbn in *; auto; try discriminate.
  inversion Ha; inversion Hb; subst. rewrite u8_eq_mask_spec by assumption.
  destruct (x =? y); cbn [andb].
  - replace (acc .& 255) with acc by (destruct Hacc; subst; reflexivity). apply IH; auto.
  - rewrite Z.land_0_r. rewrite IH by auto. destruct (beq a b); reflexivity.
Qed.
Lemma bytes_eq_mask_spec : forall a b, is_bytes a -> is_bytes b -> length a = length b ->
  bytes_eq_mask a b = if beq a b then 255 else 0.
Proof. intros. apply bytes_eq_mask_acc; auto. Qed.

Lemma select_0 : forall r z, is_byte r -> select_byte 0 r z = r.
Proof.
  intros r z Hr. unfold select_byte. rewrite Z.land_0_r, Z.lor_0_r.
  change (Z.lxor 0 255) with (2 ^ 8 - 1). rewrite land_mask_mod by lia. apply Z.mod_small. exact Hr.
Qed.
Lemma select_255 : forall r z, is_byte z -> select_byte 255 r z = z.
Proof.
  intros r z Hz. unfold select_byte. change (Z.lxor 255 255) with 0. rewrite Z.land_0_r, Z.lor_0_l.
  change 255 with (2 ^ 8 - 1). rewrite land_mask_mod by lia. apply Z.mod_small. exact Hz.
Qed.
Lemma map2_select_0 : forall a b, is_bytes a -> length a = length b ->
  map2 (select_byte 0) a b = a.
Proof.
  induction a as [|x a IH]; intros [|y b] Ha HL; cbn in *; auto; try discriminate.
  inversion Ha; subst. rewrite select_0, IH; auto.
Qed.
Lemma map2_select_255 : forall a b, is_bytes b -> length a = length b ->
  map2 (select_byte 255) a b = b.
Proof.
  induction a as [|x a IH]; intros [|y b] Hb HL; cbn in *; auto; try discriminate.
  inversion Hb; subst. rewrite select_255, IH; auto.
Qed.

Lemma decapsulate_spec : forall h I ct sk, param_set I -> wf_sk I sk ->
  length ct = BYTES_CCA_DEC I -> is_bytes ct ->
  decapsulate h I ct sk =
  let m := decapsulate_ind_cpa I ct (sk_sk_cpa sk) in
  let kr := sha3_512 h (sk_hash_pk sk ++ m) in
  let again := indcpa_enc h I m (firstn 32 kr) (sk_pk_cca sk) in
  sha3_256 h ((if beq again ct then sha3_256 h ct else sk_z sk) ++ skipn 32 kr).
Proof.
  intros h I ct sk HI [Hz [Bz _]] HL Hb. unfold decapsulate, decapsulate_ind_cpa.
  change KEYBYTES with 32%nat.
  set (m := indcpa_dec I (sk_sk_cpa sk) ct). cbv zeta.
  set (kr := sha3_512 h (sk_hash_pk sk ++ m)).
  set (again := indcpa_enc h I m (firstn 32 kr) (sk_pk_cca sk)).
  destruct (enc_length h I m (firstn 32 kr) (sk_pk_cca sk) HI) as [L B]. fold again in L, B.
  rewrite bytes_eq_mask_spec by (auto; congruence).
  destruct (sha3_256_length h again) as [LS BS].
  destruct (beq again ct) eqn:E.
  - apply beq_spec in E. change (Z.lxor 255 255) with 0.
    rewrite map2_select_0 by (auto; rewrite LS, Hz; reflexivity). rewrite E. reflexivity.
  - change (Z.lxor 255 0) with 255.
    rewrite map2_select_255 by (auto; rewrite LS, Hz; reflexivity). reflexivity.
Qed.
