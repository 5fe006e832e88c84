(** * AvxShake2: the AVX2 build of Dilithium2 down to its instructions, hashing included (C77). *)
From Coq Require Import ZArith List Lia Bool.
From Verif Require Import Keccak KeccakSpec KeccakPerm KeccakSponge KeccakProps PropsKeccak KeccakX4 KeccakX4Ok FipsX4Ok.
From Verif Require Import Base Bits SaberPoly SaberRing DilArith DilNtt DilPoly DilPack DilCodec DilHint DilOps DilSample DilSampleSpec DilSign DilCorrect DilProps DilSpec DilSpec2 DilShake DilShake2.
From Verif Require Import AvxMachine AvxNtt AvxPoint AvxPoly AvxBytes AvxBytesOk AvxCodecOk AvxSign AvxSample AvxSignOk AvxSignOk2 AvxVerifyOk AvxSpec AvxShake.
Import ListNotations.
Open Scope Z_scope.
Local Opaque StatePermute keccak_f f1600x4 keccakx4_squeezeblocks keccakx4_absorb_once invntt_avx ntt_avx pointwise_avx pointwise_acc_avx pointwise_alias_avx nttunpack_avx
  H256 poly_challenge poly_challenge_c hash2_c c_shake256 poly_uniform_4x_c gamma1_4x_c poly_uniform_4x gamma1_4x poly_uniform poly_uniform_gamma1
  reduce_avx add_avx sub_avx caddq_avx decompose_avx use_hint_avx polyw1_pack_avx polyz_unpack_avx SHAKE256 OMEGA.

(** ** The rows of the matrix *)
Lemma row_c_ok : forall e yr fuel rho i, ctx_ok e -> yr_ok yr -> is_bytes rho -> (32 <= length rho)%nat -> (i < 4)%nat ->
  matrix_expand_row_c e yr fuel rho i = matrix_expand_row e fuel fips_xof rho i.
Proof.
  intros e yr fuel rho i He Y B L Hi. unfold matrix_expand_row_c, matrix_expand_row.
  assert (F : Forall (fun n => 0 <= n < 65536) (map (fun j => 256 * Z.of_nat i + Z.of_nat j) (seq 0 4))).
  { apply Forall_map, Forall_forall. intros j Hj. apply in_seq in Hj. lia. }
  rewrite (poly_uniform_4x_c_ok e yr fuel rho _ He Y B L); [|reflexivity|exact F].
  rewrite (poly_uniform_4x_ok e fuel fips_xof rho _ He F). reflexivity.
Qed.
Lemma matrix_c_ok : forall e yr fuel rho, ctx_ok e -> yr_ok yr -> is_bytes rho -> (32 <= length rho)%nat ->
  matrix_expand_avx_c e yr fuel rho = matrix_expand_avx e fuel fips_xof rho.
Proof.
  intros e yr fuel rho He Y B L. unfold matrix_expand_avx_c, matrix_expand_avx. apply AvxSample.mapM_ext.
  intros i Hi. apply in_seq in Hi. apply row_c_ok; try assumption. lia.
Qed.
Lemma gamma1_c_ok : forall e yr seed nonces, ctx_ok e -> yr_ok yr -> is_bytes seed -> length seed = 64%nat -> length nonces = 4%nat ->
  gamma1_4x_c e yr seed nonces = gamma1_4x e fips_xof seed nonces.
Proof.
  intros e yr seed nonces He Y B L Ln. rewrite (gamma1_4x_c_ok e yr seed nonces He Y B) by lia. symmetry.
  rewrite (gamma1_4x_ok e fips_xof seed nonces He). reflexivity.
Qed.

(** ** What is hashed is bytes, whatever the buffer held *)
Lemma le_bytes_bytes : forall n x, is_bytes (le_bytes n x).
Proof.
  intro n. induction n as [|n IH]; intro x; [constructor|]. cbn [le_bytes]. apply Forall_cons; [|apply IH]. unfold is_byte. apply Z.mod_pos_bound. lia.
Qed.
Lemma bytes32_bytes : forall l, is_bytes (bytes32 l).
Proof.
  intro l. unfold bytes32. induction l as [|x l IH]; [constructor|]. cbn [flat_map]. apply Forall_app. split; [apply le_bytes_bytes|exact IH].
Qed.
Lemma w1_block_ok : forall a b c d, is_bytes (w1_block a b c d) /\ length (w1_block a b c d) = 32%nat.
Proof. intros a b c d. unfold w1_block. cbv zeta. split; [apply bytes32_bytes|reflexivity]. Qed.
Lemma patch_prefix : forall (b b' src : bytes) off, patch b off src = CRet b' -> is_bytes (firstn off b) -> is_bytes src ->
  length b' = length b /\ is_bytes (firstn (off + length src) b').
Proof.
  intros b b' src off E F S. unfold patch in E. destruct (Nat.leb_spec (off + length src) (length b)) as [L|L]; [|discriminate E].
  assert (b' = firstn off b ++ src ++ skipn (off + length src) b) as -> by congruence. clear E. split.
  - rewrite !app_length, firstn_length, skipn_length. lia.
  - rewrite app_assoc, firstn_app, app_length, firstn_length, Nat.min_l by lia. rewrite Nat.sub_diag, firstn_O, app_nil_r.
    rewrite firstn_all2 by (rewrite app_length, firstn_length; lia). apply Forall_app. split; assumption.
Qed.
Lemma is_bytes_prefix : forall n m (b : bytes), (n <= m)%nat -> is_bytes (firstn m b) -> is_bytes (firstn n b).
Proof. intros n m b L H. rewrite <- (firstn_firstn_le b n m L). apply is_bytes_firstn, H. Qed.
Local Transparent polyw1_pack_avx.
Lemma w1_poly_prefix : forall b b' off a, polyw1_pack_avx b off a = CRet b' -> is_bytes (firstn off b) ->
  length b' = length b /\ is_bytes (firstn (off + 192) b').
Proof.
  intros b b' off a E F. unfold polyw1_pack_avx in E.
  assert (G : forall k i s, (i + k = 8)%nat -> is_bytes (firstn (off + 24 * i) s) ->
    foldM (fun r i => patch r (off + 24 * i) (w1_block (vec_of a (4 * i)) (vec_of a (4 * i + 1)) (vec_of a (4 * i + 2)) (vec_of a (4 * i + 3)))) (seq i k) s = CRet b' ->
    length b' = length s /\ is_bytes (firstn (off + 192) b')).
  { induction k as [|k IH]; intros i s Hi Fs Es.
    - cbn [seq foldM] in Es. assert (b' = s) as -> by congruence. split; [reflexivity|]. apply (is_bytes_prefix _ (off + 24 * i)); [lia|exact Fs].
    - cbn [seq] in Es. rewrite foldM_cons in Es.
      destruct (w1_block_ok (vec_of a (4 * i)) (vec_of a (4 * i + 1)) (vec_of a (4 * i + 2)) (vec_of a (4 * i + 3))) as [Bw Lw].
      revert Bw Lw Es. generalize (w1_block (vec_of a (4 * i)) (vec_of a (4 * i + 1)) (vec_of a (4 * i + 2)) (vec_of a (4 * i + 3))). intros w Bw Lw Es.
      destruct (patch s (off + 24 * i) w) as [s'| |] eqn:P; try discriminate Es. cbn [cbind] in Es.
      destruct (patch_prefix s s' w _ P Fs Bw) as [L' F']. rewrite Lw in F'.
      destruct (IH (Datatypes.S i) s' ltac:(lia)) as [L'' F'']; [apply (is_bytes_prefix _ (off + 24 * i + 32)); [lia|exact F']|exact Es|].
      split; [congruence|exact F'']. }
  apply (G 8%nat 0%nat b); [reflexivity| |exact E]. rewrite Nat.mul_0_r, Nat.add_0_r. exact F.
Qed.
Local Opaque polyw1_pack_avx.
Lemma w1_prefix : forall w1 i b b', foldM (fun b ir => polyw1_pack_avx b (192 * fst ir) (snd ir)) (combine (seq i (length w1)) w1) b = CRet b' ->
  is_bytes (firstn (192 * i) b) -> is_bytes (firstn (192 * (i + length w1)) b').
Proof.
  induction w1 as [|a w1 IH]; intros i b b' E F; cbn [length seq combine] in *.
  - cbn [foldM] in E. assert (b' = b) as -> by congruence. rewrite Nat.add_0_r. exact F.
  - rewrite foldM_cons in E. cbn [fst snd] in E. destruct (polyw1_pack_avx b (192 * i) a) as [b1| |] eqn:P; try discriminate E. cbn [cbind] in E.
    destruct (w1_poly_prefix _ _ _ _ P F) as [_ F1].
    replace (192 * (i + Datatypes.S (length w1)))%nat with (192 * (Datatypes.S i + length w1))%nat by lia. apply (IH (Datatypes.S i) b1 b' E).
    replace (192 * Datatypes.S i)%nat with (192 * i + 192)%nat by lia. exact F1.
Qed.
Lemma pack_w1_prefix : forall b b' w1, length w1 = 4%nat -> pack_w1_avx b w1 = CRet b' -> is_bytes (firstn 768 b').
Proof.
  intros b b' w1 L E. unfold pack_w1_avx in E.
  assert (H : foldM (fun b ir => polyw1_pack_avx b (192 * fst ir) (snd ir)) (combine (seq 0 (length w1)) w1) b = CRet b') by (rewrite L; exact E).
  clear E. apply w1_prefix in H; [|apply Forall_nil]. rewrite L in H. exact H.
Qed.
Local Transparent poly_challenge poly_challenge_c.
Lemma challenge_c_prefix : forall fuel a, is_bytes (firstn 32 a) -> poly_challenge_c fuel a = poly_challenge fuel fips_xof a.
Proof.
  intros fuel a B. rewrite (challenge_prefix fuel fips_xof a (firstn 32 a)) by (rewrite firstn_firstn_le by lia; reflexivity).
  rewrite <- (poly_challenge_fips fuel (firstn 32 a) B). unfold poly_challenge_c. rewrite firstn_firstn_le by lia. reflexivity.
Qed.
Local Opaque poly_challenge poly_challenge_c.

(** ** Signing *)
Lemma attempt_c_ok : forall e yr fuel mat s1 s2 t0 mu rp nonce sig, ctx_ok e -> yr_ok yr -> length mat = 4%nat -> is_bytes mu -> is_bytes rp -> length rp = 64%nat ->
  sign_attempt_avx_c e yr fuel mat s1 s2 t0 mu rp nonce sig = sign_attempt_avx e fuel fips_xof mat s1 s2 t0 mu rp nonce sig.
Proof.
  intros e yr fuel mat s1 s2 t0 mu rp nonce sig He Y Lm BM BR LR. unfold sign_attempt_avx_c, sign_attempt_avx. cbv zeta.
  rewrite (gamma1_c_ok e yr rp _ He Y BR LR) by reflexivity. apply bind_ext. intros z _.
  set (w1 := map fst _). set (w0 := map snd _). assert (LW : length w1 = 4%nat) by (unfold w1; rewrite !map_length; exact Lm). clearbody w1 w0.
  apply bind_ext. intros sg E. assert (B := pack_w1_prefix sig sg w1 LW E). clear E.
  rewrite (hash2_fips 32 mu (firstn 768 sg) BM B). assert (HB := H256_bytes fips_xof 32 (mu ++ firstn 768 sg)). assert (HL := H256_length fips_xof 32 (mu ++ firstn 768 sg)).
  revert HB HL. generalize (H256 fips_xof 32 (mu ++ firstn 768 sg)). intros ct HB HL. apply bind_ext. intros sg2 E.
  destruct (patch_prefix sg sg2 ct 0 E ltac:(constructor) HB) as [_ B2]. rewrite HL in B2.
  rewrite (challenge_c_prefix fuel sg2 B2). reflexivity.
Qed.
Local Opaque sign_attempt_avx sign_attempt_avx_c.
Lemma loop_c_ok : forall att e yr fuel mat s1 s2 t0 mu rp nonce sig, ctx_ok e -> yr_ok yr -> length mat = 4%nat -> is_bytes mu -> is_bytes rp -> length rp = 64%nat ->
  sign_loop_avx_c att e yr fuel mat s1 s2 t0 mu rp nonce sig = sign_loop_avx att e fuel fips_xof mat s1 s2 t0 mu rp nonce sig.
Proof.
  induction att as [|a IH]; intros e yr fuel mat s1 s2 t0 mu rp nonce sig He Y Lm BM BR LR; [reflexivity|]. cbn [sign_loop_avx_c sign_loop_avx].
  rewrite attempt_c_ok by assumption. apply bind_ext. intros [sg ok] _. destruct ok; [reflexivity|]. apply IH; assumption.
Qed.
Local Opaque sign_loop_avx sign_loop_avx_c.
Lemma mapM_length : forall {A B} (f : A -> crun B) l r, mapM f l = CRet r -> length r = length l.
Proof.
  intros A B f l. induction l as [|x l IH]; intros r E; cbn [mapM] in E.
  - assert (r = []) as -> by congruence. reflexivity.
  - destruct (f x) as [y| |]; try discriminate E. cbn [cbind] in E. destruct (mapM f l) as [ys| |]; try discriminate E. cbn [cbind] in E.
    assert (r = y :: ys) as -> by congruence. cbn [length]. rewrite (IH ys eq_refl). reflexivity.
Qed.
Lemma sign_c_run : forall att e yr fuel sig0 m sk, ctx_ok e -> yr_ok yr -> is_bytes m -> is_bytes sk -> length sk = 2560%nat ->
  sign_signature_avx_c att e yr fuel sig0 m sk = sign_signature_avx att e fuel fips_xof sig0 m sk.
Proof.
  intros att e yr fuel sig0 m sk He Y BM BS L. unfold sign_signature_avx_c, sign_signature_avx.
  assert (E : unpack_sk sk = (slice sk 0 32, slice sk 64 64, slice sk 32 32, snd (fst (fst (unpack_sk sk))), snd (fst (unpack_sk sk)), snd (unpack_sk sk))) by reflexivity.
  rewrite E. generalize (snd (fst (fst (unpack_sk sk)))). intro t0. generalize (snd (fst (unpack_sk sk))). intro s1. generalize (snd (unpack_sk sk)). intro s2. clear E.
  assert (B1 := slice_bytes sk 0 32 BS). assert (B2 := slice_bytes sk 64 64 BS). assert (B3 := slice_bytes sk 32 32 BS).
  assert (L1 : length (slice sk 0 32) = 32%nat) by (apply slice_length; lia). revert L1 B1 B2 B3.
  generalize (slice sk 0 32) (slice sk 64 64) (slice sk 32 32). intros rho tr key L1 B1 B2 B3. cbv zeta.
  rewrite hash2_fips by assumption. assert (MB := H256_bytes fips_xof 64 (tr ++ m)). revert MB. generalize (H256 fips_xof 64 (tr ++ m)). intros mu MB.
  rewrite shake256_fips.
  - assert (RB := H256_bytes fips_xof 64 (key ++ repeat 0 32 ++ mu)). assert (RL := H256_length fips_xof 64 (key ++ repeat 0 32 ++ mu)).
    revert RB RL. generalize (H256 fips_xof 64 (key ++ repeat 0 32 ++ mu)). intros rp RB RL.
    rewrite matrix_c_ok by (assumption || lia). apply bind_ext. intros mat E. apply loop_c_ok; try assumption.
    unfold matrix_expand_avx in E. apply mapM_length in E. exact E.
  - apply Forall_app. split; [exact B3|]. apply Forall_app. split; [|exact MB]. apply Forall_forall. intros x Hx. apply repeat_spec in Hx. subst x. unfold is_byte. lia.
Qed.
(** For every secret key, message, budget, contents of the output buffer, of uninitialised memory
    and of the vector registers, signing with the AVX2 build, from its hash instructions up, returns
    the bytes that signing with the portable C code returns. *)
Theorem avx_sign_c : forall att e yr fuel sig0 m sk, ctx_ok e -> yr_ok yr -> length sig0 = 2420%nat -> length sk = 2560%nat -> is_bytes m -> is_bytes sk ->
  sign_signature_avx_c att e yr fuel sig0 m sk = sign_c att fuel m sk.
Proof.
  intros att e yr fuel sig0 m sk He Y Ls Lk BM BS. rewrite sign_c_run by assumption. rewrite avx_sign_signature by assumption. symmetry. apply sign_fips; assumption.
Qed.

(** ** Verification *)
Lemma rows_c_ok : forall e yr fuel pk hint c z, ctx_ok e -> yr_ok yr -> is_bytes pk -> length pk = 1312%nat ->
  forall n i buf pos, (i + n <= 4)%nat ->
  verify_rows_c e yr fuel pk hint c z (seq i n) buf pos = verify_rows e fuel fips_xof pk hint c z (seq i n) buf pos.
Proof.
  intros e yr fuel pk hint c z He Y B L. induction n as [|n IH]; intros i buf pos Hi; [reflexivity|]. cbn [seq verify_rows_c verify_rows]. cbv zeta.
  rewrite row_c_ok by (assumption || lia). apply bind_ext. intros row _. destruct (_ || _); [reflexivity|].
  destruct (hint_row_avx _ _ _) as [h|]; [|reflexivity]. apply bind_ext. intros b _. apply IH. lia.
Qed.
Lemma verify_rows_prefix : forall e fuel X pk hint c z n i buf pos buf' pos',
  verify_rows e fuel X pk hint c z (seq i n) buf pos = CRet (Some (buf', pos')) -> is_bytes (firstn (192 * i) buf) -> is_bytes (firstn (192 * (i + n)) buf').
Proof.
  intros e fuel X pk hint c z. induction n as [|n IH]; intros i buf pos buf' pos' E F; cbn [seq verify_rows] in E.
  - assert (buf' = buf) as -> by congruence. rewrite Nat.add_0_r. exact F.
  - cbv zeta in E. destruct (matrix_expand_row e fuel X pk i) as [row| |]; try discriminate E. cbn [cbind] in E.
    destruct (_ || _); [discriminate E|]. destruct (hint_row_avx _ _ _) as [h|]; [|discriminate E].
    match type of E with context [polyw1_pack_avx buf ?o ?w] => revert E; generalize w; intros w1 E end.
    destruct (polyw1_pack_avx buf (192 * i) w1) as [b1| |] eqn:P; try discriminate E. cbn [cbind] in E. destruct (w1_poly_prefix _ _ _ _ P F) as [_ F1].
    replace (192 * (i + Datatypes.S n))%nat with (192 * (Datatypes.S i + n))%nat by lia. apply (IH (Datatypes.S i) b1 _ _ _ E).
    replace (192 * Datatypes.S i)%nat with (192 * i + 192)%nat by lia. exact F1.
Qed.
Local Opaque verify_rows verify_rows_c.
Lemma verify_c_run : forall e yr fuel sig m pk, ctx_ok e -> yr_ok yr -> is_bytes sig -> is_bytes m -> is_bytes pk -> length pk = 1312%nat ->
  verify_signature_avx_c e yr fuel sig m pk = verify_signature_avx e fuel fips_xof sig m pk.
Proof.
  intros e yr fuel sig m pk He Y BS BM BP L. unfold verify_signature_avx_c, verify_signature_avx. destruct (negb _); [reflexivity|]. cbv zeta.
  rewrite (firstn_all2 pk) by lia. rewrite shake256_fips by exact BP. rewrite hash2_fips by (exact BM || apply H256_bytes).
  assert (MB := H256_bytes fips_xof 64 (H256 fips_xof 64 pk ++ m)). revert MB. generalize (H256 fips_xof 64 (H256 fips_xof 64 pk ++ m)). intros mu MB.
  rewrite challenge_c_prefix by (apply is_bytes_firstn, BS). apply bind_ext. intros c _. apply bind_ext. intros z _.
  rewrite rows_c_ok by (assumption || lia). apply bind_ext. intros [[buf pos]|] E; [|reflexivity].
  pose proof (verify_rows_prefix _ _ _ _ _ _ _ 4 0 _ _ _ _ E ltac:(constructor)) as B. change (192 * (0 + 4))%nat with 768%nat in B.
  destruct (forallb _ _); [|reflexivity]. rewrite hash2_fips by assumption. reflexivity.
Qed.
(** Verification with the AVX2 build accepts exactly the strings [valid_avx_spec] describes, for the
    hash functions of FIPS 202, and never leaves an array. *)
Theorem avx_verify_c_spec : forall e yr fuel sig m pk, ctx_ok e -> yr_ok yr -> length pk = 1312%nat -> is_bytes pk -> is_bytes sig -> is_bytes m ->
  verify_signature_avx_c e yr fuel sig m pk <> CUB /\
  (verify_signature_avx_c e yr fuel sig m pk = CRet true <-> valid_avx_spec fuel fips_xof sig m pk).
Proof.
  intros e yr fuel sig m pk He Y L BP BS BM. rewrite verify_c_run by assumption. apply avx_verify_spec; assumption.
Qed.
(** What either build signs under a generated key the AVX2 build accepts. *)
Theorem avx_complete_c : forall e yr f1 a f2 f3 coins pk sk m sig, ctx_ok e -> yr_ok yr -> is_bytes coins -> is_bytes m ->
  keypair_c f1 coins = CRet (pk, sk) -> sign_c a f2 m sk = CRet sig -> (f2 <= f3)%nat ->
  verify_signature_avx_c e yr f3 sig m pk = CRet true.
Proof.
  intros e yr f1 a f2 f3 coins pk sk m sig He Y BC BM HK HS F. rewrite keypair_fips in HK by exact BC.
  destruct (keypair_bytes _ _ _ _ _ HK) as [BP BS]. rewrite sign_fips in HS by assumption.
  destruct (dil_keypair_sizes _ _ _ _ _ HK) as [LP LS]. pose proof (sign_bytes _ _ _ _ _ _ LS HS) as BG.
  rewrite verify_c_run by assumption. exact (avx_complete e f1 a f2 f3 fips_xof coins pk sk m sig He HK HS F).
Qed.

(** ** One signature, two messages *)
(** The high parts the AVX2 verifier recomputes depend on the signature and the key alone. *)
Definition avx_w1 (fuel : nat) (X : xof) (sig pk : bytes) (w1 : polyvec) : Prop :=
  exists c z h w, decoded fuel X sig pk c z h w /\ shaped w1 /\ every (fun i k => repaired_up (co w i k) (co h i k) (co w1 i k)).
Lemma avx_w1_unique : forall fuel X sig pk w1 w1', length pk = 1312%nat -> is_bytes sig -> avx_w1 fuel X sig pk w1 -> avx_w1 fuel X sig pk w1' -> w1 = w1'.
Proof.
  intros fuel X sig pk w1 w1' L B (c & z & h & w & D & S & R) (c' & z' & h' & w' & D' & S' & R').
  destruct (decoded_unique fuel X sig pk c z h w c' z' h' w' L B D D') as (_ & _ & Eh & Ew). subst h' w'.
  destruct (decoded_std _ _ _ _ _ _ _ _ L B D) as (Sw & Lh & Vh).
  rewrite <- (proj2 (hint_avx_vec w h w1 Sw Lh Vh) (conj S R)). apply (hint_avx_vec w h w1' Sw Lh Vh). split; assumption.
Qed.
(** A string that the AVX2 build accepts as signature of two messages under one key is a collision of
    SHAKE256 between two named inputs: [tr ++ m] against [tr ++ m'] on 64 bytes, or
    [mu(m) ++ w1] against [mu(m') ++ w1] on 32. *)
Theorem avx_message_binding : forall e e' yr yr' fuel sig m m' pk, ctx_ok e -> ctx_ok e' -> yr_ok yr -> yr_ok yr' ->
  length pk = 1312%nat -> is_bytes pk -> is_bytes sig -> is_bytes m -> is_bytes m' ->
  verify_signature_avx_c e yr fuel sig m pk = CRet true -> verify_signature_avx_c e' yr' fuel sig m' pk = CRet true -> m <> m' ->
  exists tr mu mu' w1, is_bytes tr /\ is_bytes mu /\ is_bytes mu' /\ avx_w1 fuel fips_xof sig pk w1 /\
    bits_of_bytes tr = SHAKE256 (bits_of_bytes pk) 512 /\
    bits_of_bytes mu = SHAKE256 (bits_of_bytes (tr ++ m)) 512 /\
    bits_of_bytes mu' = SHAKE256 (bits_of_bytes (tr ++ m')) 512 /\
    (mu = mu' \/ (mu <> mu' /\ SHAKE256 (bits_of_bytes (mu ++ polyveck_pack_w1 w1)) 256 = SHAKE256 (bits_of_bytes (mu' ++ polyveck_pack_w1 w1)) 256)).
Proof.
  intros e e' yr yr' fuel sig m m' pk He He' Y Y' L BP BS BM BM' H H' N.
  apply (avx_verify_c_spec e yr fuel sig m pk He Y L BP BS BM) in H. apply (avx_verify_c_spec e' yr' fuel sig m' pk He' Y' L BP BS BM') in H'.
  assert (HB : forall n x, is_bytes x -> bits_of_bytes (H256 fips_xof n x) = SHAKE256 (bits_of_bytes x) (8 * n)).
  { intros n x Bx. rewrite <- shake256_fips by exact Bx. destruct (shake256_fips202 x n Bx) as (_ & _ & E). exact E. }
  destruct H as (c & z & h & w & w1 & D & S1 & R1 & G). destruct H' as (c' & z' & h' & w' & w1' & D' & S1' & R1' & G').
  assert (W : avx_w1 fuel fips_xof sig pk w1) by (exists c, z, h, w; auto).
  assert (W' : avx_w1 fuel fips_xof sig pk w1') by (exists c', z', h', w'; auto).
  rewrite (avx_w1_unique _ _ _ _ _ _ L BS W' W) in G'.
  destruct (decoded_unique _ _ _ _ _ _ _ _ _ _ _ _ L BS D D') as (Ec & _). subst c'. unfold closes in G, G'. clear D D' S1 S1' R1 R1' W'.
  assert (BT : is_bytes (H256 fips_xof 64 pk)) by apply H256_bytes.
  assert (B1 : is_bytes (H256 fips_xof 64 pk ++ m)) by (apply Forall_app; auto).
  assert (B2 : is_bytes (H256 fips_xof 64 pk ++ m')) by (apply Forall_app; auto).
  pose proof (HB 64%nat _ BP) as E0. pose proof (HB 64%nat _ B1) as E1. pose proof (HB 64%nat _ B2) as E2.
  assert (BM1 : is_bytes (H256 fips_xof 64 (H256 fips_xof 64 pk ++ m))) by apply H256_bytes.
  assert (BM2 : is_bytes (H256 fips_xof 64 (H256 fips_xof 64 pk ++ m'))) by apply H256_bytes.
  revert BT BM1 BM2 G G' E0 E1 E2. generalize (H256 fips_xof 64 pk) as tr. intros tr.
  generalize (H256 fips_xof 64 (tr ++ m)) as mu. intro mu. generalize (H256 fips_xof 64 (tr ++ m')) as mu'. intros mu' BT BM1 BM2 G G' E0 E1 E2.
  exists tr, mu, mu', w1. repeat (split; [assumption|]).
  destruct (list_eq_dec Z.eq_dec mu mu') as [Em|Nm]; [left; exact Em|right; split; [exact Nm|]].
  assert (A1 : is_bytes (mu ++ polyveck_pack_w1 w1)) by (apply Forall_app; split; [assumption|apply w1_bytes]).
  assert (A2 : is_bytes (mu' ++ polyveck_pack_w1 w1)) by (apply Forall_app; split; [assumption|apply w1_bytes]).
  pose proof (HB 32%nat _ A1) as F1. pose proof (HB 32%nat _ A2) as F2. rewrite <- G in F1. rewrite <- G' in F2.
  change 256%nat with (8 * 32)%nat. rewrite <- F1. exact F2.
Qed.

(** ** Examples *)
(** The premises on registers and memory are met. *)
Definition some_yr : list KeccakX4.vec := map (fun r => map (fun l => Z.of_nat (7 * r + l)) (seq 0 4)) (seq 0 16).
Example some_yr_ok : yr_ok some_yr.
Proof. split; [reflexivity|]. unfold some_yr. cbn [map seq]. repeat (apply Forall_cons; [repeat (split || constructor || (cbv; congruence))|]). apply Forall_nil. Qed.
