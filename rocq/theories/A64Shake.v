(** * A64Shake: signing and verification of the AArch64 build of Dilithium2 on top of its two-way
    Keccak and of fips202.c, nothing replaced.

    A64Sign models hashing as reading streams.  Here the functions that hash are modelled again with
    the calls the C code makes and are proved equal to those of A64Sign at the streams of FIPS 202. *)
From Coq Require Import ZArith List Lia Bool.
From Verif Require Import Keccak KeccakSpec KeccakPerm KeccakSponge KeccakProps PropsKeccak KeccakX4 KeccakX4Ok FipsX4Ok A64Keccak A64Fips.
From Verif Require Import Base Bits SaberPoly SaberRing DilArith DilNtt DilPoly DilPack DilCodec DilOps DilSample DilSampleSpec DilSign DilCorrect DilProps DilSpec DilSpec2 AvxBytesOk DilShake DilShake2 DilWitness.
From Verif Require Import AvxSample AvxSignOk2 AvxSpec AvxShake AvxShake2 A64Machine A64Ntt A64Elem A64T1 A64Sample A64Sign A64SignOk A64SignOk2 A64Props.
Import ListNotations.
Open Scope Z_scope.
Local Opaque StatePermute keccak_f StatePermutex2 keccakx2_absorb keccakx2_squeezeblocks rej_uniform squeeze.

(** ** The code *)
(** Which Keccak is linked, the 14 bytes after the nonce in extseed1 and extseed2 and the last two of
    the buffers of poly_uniformx2: uninitialised. *)
Record hctx := { h_build : build; h_ext1 : bytes; h_ext2 : bytes; h_end1 : bytes; h_end2 : bytes }.
Definition hctx_ok (h : hctx) : Prop :=
  junk_ok (h_build h) /\ is_bytes (h_ext1 h) /\ is_bytes (h_ext2 h) /\ length (h_ext1 h) = 14%nat /\ length (h_ext2 h) = 14%nat.
(** symmetric-shake.c 57-66, 80-89: the extended seeds. *)
Definition extseed (seed : bytes) (n : Z) (t : bytes) : bytes := seed ++ nonce_bytes (u16 n) ++ t.
(** symmetric-shake.c 54-75 and 77-98; [len] is SEEDBYTES or CRHBYTES. *)
Definition shake128x2_stream_init (h : hctx) (seed : bytes) (n0 n1 : Z) : crun (list v128) :=
  shake128x2_absorb (h_build h) (extseed (firstn 32 seed) n0 (h_ext1 h)) (extseed (firstn 32 seed) n1 (h_ext2 h)) (32 + 2).
Definition shake256x2_stream_init (h : hctx) (seed : bytes) (n0 n1 : Z) : crun (list v128) :=
  shake256x2_absorb (h_build h) (extseed (firstn 64 seed) n0 (h_ext1 h)) (extseed (firstn 64 seed) n1 (h_ext2 h)) (64 + 2).
(** poly.c 438-442: both buffers are refilled at the front, and scanned up to [buflen] = 840. *)
Fixpoint uniformx2_loop_c (fuel : nat) (h : hctx) (s : list v128) (a0 a1 : list Z) (buf0 buf1 : bytes) : crun (poly * poly) :=
  if (length a0 <? 256)%nat || (length a1 <? 256)%nat then
    match fuel with
    | O => CFuel
    | S f =>
        do (o, s) <- shake128x2_squeezeblocks (h_build h) 1 s ;;
        let buf0 := overwrite buf0 (fst o) in
        let buf1 := overwrite buf1 (snd o) in
        uniformx2_loop_c f h s (a0 ++ rej_uniform (256 - length a0) (firstn 840 buf0))
          (a1 ++ rej_uniform (256 - length a1) (firstn 840 buf1)) buf0 buf1
    end
  else CRet (a0, a1).
(** poly.c 423-444. *)
Definition poly_uniformx2_c (h : hctx) (fuel : nat) (seed : bytes) (n0 n1 : Z) : crun (poly * poly) :=
  do s <- shake128x2_stream_init h seed n0 n1 ;;
  do (o, s) <- shake128x2_squeezeblocks (h_build h) 5 s ;;
  let buf0 := fst o ++ h_end1 h in
  let buf1 := snd o ++ h_end2 h in
  uniformx2_loop_c fuel h s (rej_uniform 256 (firstn 840 buf0)) (rej_uniform 256 (firstn 840 buf1)) buf0 buf1.
(** polyvec.c 50-58. *)
Definition expand_column_c (h : hctx) (fuel : nat) (rho : bytes) (j : nat) : crun (list poly) :=
  let nonce i := Z.shiftl (Z.of_nat i) 8 + Z.of_nat j in
  do (a0, a1) <- poly_uniformx2_c h fuel rho (nonce 0%nat) (nonce 1%nat) ;;
  do (a2, a3) <- poly_uniformx2_c h fuel rho (nonce 2%nat) (nonce 3%nat) ;;
  CRet [a0; a1; a2; a3].
Definition matrix_expand64_c (h : hctx) (fuel : nat) (rho : bytes) : crun (list polyvec) :=
  do cols <- mapM (expand_column_c h fuel rho) (seq 0 4) ;;
  CRet (map (fun i => map (fun col => nth i col []) cols) (seq 0 4)).
(** poly.c 568-583: five blocks. *)
Definition uniform_gamma1x2_c (h : hctx) (seed : bytes) (n0 n1 : Z) : crun (poly * poly) :=
  do s <- shake256x2_stream_init h seed n0 n1 ;;
  do (o, _) <- shake256x2_squeezeblocks (h_build h) 5 s ;;
  CRet (polyz_unpack (firstn 576 (fst o)), polyz_unpack (firstn 576 (snd o))).
(** polyvec.c 84-93. *)
Definition uniform_gamma1_64_c (h : hctx) (seed : bytes) (nonce : Z) : crun polyvec :=
  do (y0, y1) <- uniform_gamma1x2_c h seed (4 * nonce + 0) (4 * nonce + 1) ;;
  do (y2, y3) <- uniform_gamma1x2_c h seed (4 * nonce + 2) (4 * nonce + 3) ;;
  CRet [y0; y1; y2; y3].

(** sign.c 153-211, as A64Sign. *)
Definition sign_attempt64_c (e : ctx64) (h : hctx) (fuel : nat) (mat : list polyvec) (s1 s2 t0 : polyvec)
    (mu rhoprime : bytes) (nonce : Z) : crun (option bytes) :=
  do y <- uniform_gamma1_64_c h rhoprime nonce ;;
  do z <- mapM (k_ntt e) y ;;
  do w <- k_matrix_mul e mat z ;;
  do w <- mapM (k_reduce e) w ;;
  do w <- mapM (k_invntt e) w ;;
  do w <- mapM (k_caddq e) w ;;
  do (w1, w0) <- polyveck_decompose w ;;
  let ctilde := hash2_c 32 mu (polyveck_pack_w1 w1) in
  do cp <- poly_challenge_c fuel ctilde ;;
  do cp <- k_ntt e cp ;;
  do z <- mapM (k_pointwise e cp) s1 ;;
  do z <- mapM (k_invntt e) z ;;
  do z <- polyvec_add z y ;;
  do z <- mapM (k_reduce e) z ;;
  do bad <- polyvec_chknorm z (GAMMA1 - BETA) ;;
  if (bad : bool) then CRet None else
  do h <- mapM (k_pointwise e cp) s2 ;;
  do h <- mapM (k_invntt e) h ;;
  do w0 <- polyvec_sub w0 h ;;
  do w0 <- mapM (k_reduce e) w0 ;;
  do bad <- polyvec_chknorm w0 (GAMMA2 - BETA) ;;
  if (bad : bool) then CRet None else
  do h <- mapM (k_pointwise e cp) t0 ;;
  do h <- mapM (k_invntt e) h ;;
  do h <- mapM (k_reduce e) h ;;
  do bad <- polyvec_chknorm h GAMMA2 ;;
  if (bad : bool) then CRet None else
  do w0 <- polyvec_add w0 h ;;
  let '(h, n) := polyveck_make_hint w0 w1 in
  if Z.of_nat OMEGA <? n then CRet None else
  do sig <- pack_sig ctilde z h ;; CRet (Some sig).
Fixpoint sign_loop64_c (att : nat) (e : ctx64) (h : hctx) (fuel : nat) (mat : list polyvec) (s1 s2 t0 : polyvec)
    (mu rhoprime : bytes) (nonce : Z) : crun bytes :=
  match att with
  | O => CFuel
  | S a =>
      do r <- sign_attempt64_c e h fuel mat s1 s2 t0 mu rhoprime nonce ;;
      match r with
      | Some sig => CRet sig
      | None => sign_loop64_c a e h fuel mat s1 s2 t0 mu rhoprime (u16 (nonce + 1))
      end
  end.
(** sign.c 109-211. *)
Definition sign_signature64_c (att : nat) (e : ctx64) (h : hctx) (fuel : nat) (m sk : bytes) : crun bytes :=
  let '(rho, tr, key, t0, s1, s2) := unpack_sk sk in
  let mu := hash2_c 64 tr m in
  let rhoprime := c_shake256 64 (key ++ repeat 0 32 ++ mu) in
  do mat <- matrix_expand64_c h fuel rho ;;
  do s1 <- mapM (k_ntt e) s1 ;;
  do s2 <- mapM (k_ntt e) s2 ;;
  do t0 <- mapM (k_ntt e) t0 ;;
  sign_loop64_c att e h fuel mat s1 s2 t0 mu rhoprime 0.
(** sign.c 261-333. *)
Definition verify_signature64_c (e : ctx64) (hc : hctx) (fuel : nat) (sig m pk : bytes) : crun bool :=
  if negb (length sig =? 2420)%nat then CRet false else
  do (rho, t1) <- k_unpack_pk e pk ;;
  match unpack_sig sig with
  | None => CRet false
  | Some (c, z, h) =>
      do bad <- polyvec_chknorm z (GAMMA1 - BETA) ;;
      if (bad : bool) then CRet false else
      let mu := hash2_c 64 (c_shake256 64 (firstn 1312 pk)) m in
      do cp <- poly_challenge_c fuel c ;;
      do mat <- matrix_expand64_c hc fuel rho ;;
      do z <- mapM (k_ntt e) z ;;
      do w <- k_matrix_mul e mat z ;;
      do cp <- k_ntt e cp ;;
      do t1 <- polyvec_shiftl t1 ;;
      do t1 <- mapM (k_ntt e) t1 ;;
      do t1 <- mapM (k_pointwise_in e cp) t1 ;;
      do w <- polyvec_sub w t1 ;;
      do w <- mapM (k_reduce e) w ;;
      do w <- mapM (k_invntt e) w ;;
      do w <- mapM (k_caddq e) w ;;
      do w1 <- polyveck_use_hint w h ;;
      let c2 := hash2_c 32 mu (polyveck_pack_w1 w1) in
      CRet (beq c c2)
  end.

(** ** The streams *)
(** Two lanes that have absorbed [m0] and [m1] and squeezed [k] blocks. *)
Definition at2 (r : nat) (m0 m1 : bytes) (k : nat) (s : list v128) : Prop :=
  ok2 s /\ is_bytes m0 /\ is_bytes m1 /\ forall j, lane2 j s = Nat.iter k StatePermute (padstate r 31 (two m0 m1 j)).
Lemma extseed_ok : forall seed n t, is_bytes seed -> is_bytes t -> is_bytes (extseed seed n t) /\
  firstn (length seed + 2) (extseed seed n t) = seed ++ nonce_bytes (u16 n) /\ length (extseed seed n t) = (length seed + 2 + length t)%nat.
Proof.
  intros seed n t B T. unfold extseed. split; [|split].
  - apply Forall_app. split; [exact B|]. apply Forall_app. split; [apply nonce_is_bytes|exact T].
  - rewrite app_assoc, firstn_app, app_length, nonce_two, Nat.sub_diag, firstn_O, app_nil_r.
    apply firstn_all2. rewrite app_length, nonce_two. lia.
  - rewrite !app_length, nonce_two. lia.
Qed.
Lemma absorb_at2 : forall h r seed n0 n1, hctx_ok h -> rate2 r -> is_bytes seed -> (roundup (length seed + 2) <= length seed + 16)%nat ->
  exists s, keccakx2_absorb (h_build h) r (extseed seed n0 (h_ext1 h)) (extseed seed n1 (h_ext2 h)) (length seed + 2) 31 = CRet s /\
    at2 r (seed ++ nonce_bytes (u16 n0)) (seed ++ nonce_bytes (u16 n1)) 0 s.
Proof.
  intros h r seed n0 n1 (J & B1 & B2 & L1 & L2) R B U.
  destruct (extseed_ok seed n0 _ B B1) as (E1 & F1 & G1). destruct (extseed_ok seed n1 _ B B2) as (E2 & F2 & G2).
  destruct (absorb2_ok (h_build h) r (extseed seed n0 (h_ext1 h)) (extseed seed n1 (h_ext2 h)) (length seed + 2) 31 J R) as (s & E & O & H).
  - intros []; assumption.
  - lia.
  - intros []; cbn [two]; lia.
  - exists s. split; [exact E|]. split; [exact O|]. rewrite <- F1, <- F2.
    split; [apply is_bytes_firstn, E1|]. split; [apply is_bytes_firstn, E2|]. intro j. rewrite H. cbn [Nat.iter]. destruct j; reflexivity.
Qed.
Lemma squeeze_at2 : forall b r m0 m1 k n s, junk_ok b -> rate2 r -> at2 r m0 m1 k s ->
  exists s', keccakx2_squeezeblocks b n r s =
    CRet (map (obyte r (padstate r 31 m0)) (seq (k * r) (n * r)), map (obyte r (padstate r 31 m1)) (seq (k * r) (n * r)), s') /\ at2 r m0 m1 (k + n) s'.
Proof.
  intros b r m0 m1 k n s J R (O & B0 & B1 & H). destruct (squeeze2_ok b r J R n s O) as ([o0 o1] & s' & E & O' & G).
  assert (RB := rate_bounds r (rate2_rate r R)). exists s'.
  assert (W : forall j, is_bytes (two m0 m1 j)) by (intros []; assumption).
  assert (K : forall j, sel j (o0, o1) = map (obyte r (padstate r 31 (two m0 m1 j))) (seq (k * r) (n * r)) /\ lane2 j s' = Nat.iter (k + n) StatePermute (padstate r 31 (two m0 m1 j))).
  { intro j. assert (Gj := G j). rewrite (H j) in Gj. rewrite squeezeblocks_eq in Gj.
    - apply pair_equal_spec in Gj. exact Gj.
    - apply rate2_rate, R.
    - apply padstate_wf; [lia|apply W]. }
  split.
  - rewrite E. assert (K0 := proj1 (K false)). assert (K1 := proj1 (K true)). cbn [sel fst snd two] in K0, K1. rewrite K0, K1. reflexivity.
  - split; [exact O'|]. split; [exact B0|]. split; [exact B1|]. intro j. apply K.
Qed.
Lemma squeeze128_at2 : forall b m0 m1 k n s, junk_ok b -> at2 168 m0 m1 k s ->
  exists s', shake128x2_squeezeblocks b n s =
    CRet (squeeze (shake128 fips_xof m0) (k * 168) (n * 168), squeeze (shake128 fips_xof m1) (k * 168) (n * 168), s') /\ at2 168 m0 m1 (k + n) s'.
Proof.
  intros b m0 m1 k n s J A. destruct (squeeze_at2 b 168 m0 m1 k n s J rate2_128 A) as (s' & E & A'). exists s'. split; [|exact A'].
  unfold shake128x2_squeezeblocks, R_SHAKE128. rewrite E. destruct A as (_ & B0 & B1 & _). rewrite !squeeze128_eq by assumption. reflexivity.
Qed.
Lemma squeeze256_at2 : forall b m0 m1 k n s, junk_ok b -> at2 136 m0 m1 k s ->
  exists s', shake256x2_squeezeblocks b n s =
    CRet (squeeze (shake256 fips_xof m0) (k * 136) (n * 136), squeeze (shake256 fips_xof m1) (k * 136) (n * 136), s') /\ at2 136 m0 m1 (k + n) s'.
Proof.
  intros b m0 m1 k n s J A. destruct (squeeze_at2 b 136 m0 m1 k n s J rate2_256 A) as (s' & E & A'). exists s'. split; [|exact A'].
  unfold shake256x2_squeezeblocks, R_SHAKE256. rewrite E. destruct A as (_ & B0 & B1 & _). rewrite !squeeze256_eq by assumption. reflexivity.
Qed.

(** ** The samplers *)
Lemma overwrite_840 : forall (o b t : bytes) n, length o = n -> (n <= 840)%nat -> length b = 840%nat ->
  overwrite (b ++ t) o = (o ++ skipn n b) ++ t /\ firstn 840 ((o ++ skipn n b) ++ t) = o ++ skipn n b /\ length (o ++ skipn n b) = 840%nat.
Proof.
  intros o b t n Lo N Lb. assert (L : length (o ++ skipn n b) = 840%nat) by (rewrite app_length, skipn_length; lia). split; [|split; [|exact L]].
  - unfold overwrite. rewrite Lo, skipn_app, Lb. replace (n - 840)%nat with 0%nat by lia. rewrite skipn_O, app_assoc. reflexivity.
  - rewrite firstn_app, L, Nat.sub_diag, firstn_O, app_nil_r. apply firstn_all2. lia.
Qed.
Lemma loop_c_eq2 : forall h m0 m1, hctx_ok h -> forall fuel k s a0 a1 b0 b1 t0 t1, length b0 = 840%nat -> length b1 = 840%nat -> at2 168 m0 m1 k s ->
  uniformx2_loop_c fuel h s a0 a1 (b0 ++ t0) (b1 ++ t1) =
  uniformx2_loop fuel (shake128 fips_xof m0) (shake128 fips_xof m1) a0 a1 b0 b1 (k * 168).
Proof.
  intros h m0 m1 Hh fuel. induction fuel as [|f IH]; intros k s a0 a1 b0 b1 t0 t1 L0 L1 A; cbn [uniformx2_loop_c uniformx2_loop]; [reflexivity|].
  destruct (_ || _); [|reflexivity]. destruct (squeeze128_at2 (h_build h) m0 m1 k 1 s (proj1 Hh) A) as (s' & E & A').
  change (1 * 168)%nat with 168%nat in E. rewrite E. cbn [cbind fst snd]. clear E. cbv zeta. change SHAKE128_RATE with 168%nat.
  destruct (overwrite_840 (squeeze (shake128 fips_xof m0) (k * 168) 168) b0 t0 168 (squeeze_length _ _ _)) as (X0 & Y0 & Z0); [lia|exact L0|].
  destruct (overwrite_840 (squeeze (shake128 fips_xof m1) (k * 168) 168) b1 t1 168 (squeeze_length _ _ _)) as (X1 & Y1 & Z1); [lia|exact L1|].
  rewrite X0, X1, Y0, Y1. rewrite (IH (k + 1)%nat s' _ _ _ _ t0 t1 Z0 Z1 A'). replace ((k + 1) * 168)%nat with (k * 168 + 168)%nat by lia. reflexivity.
Qed.
Theorem poly_uniformx2_c_ok : forall h fuel seed n0 n1, hctx_ok h -> is_bytes seed -> length seed = 32%nat ->
  poly_uniformx2_c h fuel seed n0 n1 = poly_uniformx2 fuel fips_xof seed n0 n1.
Proof.
  intros h fuel seed n0 n1 Hh B L. unfold poly_uniformx2_c, shake128x2_stream_init, shake128x2_absorb. rewrite (firstn_all2 seed) by lia.
  destruct (absorb_at2 h R_SHAKE128 seed n0 n1 Hh rate2_128 B) as (s & E & A); [rewrite L; unfold roundup; cbn; lia|].
  rewrite L in E. rewrite E. cbn [cbind]. clear E. change R_SHAKE128 with 168%nat in A.
  destruct (squeeze128_at2 (h_build h) _ _ 0 5 s (proj1 Hh) A) as (s' & E & A'). rewrite E. cbn [cbind fst snd]. clear E A. cbv zeta.
  change (0 * 168)%nat with 0%nat. change (5 * 168)%nat with 840%nat. change (0 + 5)%nat with 5%nat in A'.
  unfold poly_uniformx2, stream128. cbv zeta.
  assert (F : forall (b t : bytes), length b = 840%nat -> firstn 840 (b ++ t) = b).
  { intros b t Lb. rewrite firstn_app, Lb, Nat.sub_diag, firstn_O, app_nil_r. apply firstn_all2. lia. }
  rewrite !F by apply squeeze_length.
  rewrite (loop_c_eq2 h _ _ Hh fuel 5 s') by (apply squeeze_length || exact A'). reflexivity.
Qed.
Local Opaque poly_uniformx2_c poly_uniformx2.
Theorem matrix_expand64_c_ok : forall h fuel rho, hctx_ok h -> is_bytes rho -> length rho = 32%nat ->
  matrix_expand64_c h fuel rho = matrix_expand64 fuel fips_xof rho.
Proof.
  intros h fuel rho Hh B L. unfold matrix_expand64_c, matrix_expand64. apply cbind_ext; [|reflexivity].
  apply DilShake2.mapM_ext. intro j. unfold expand_column_c, expand_column. rewrite !poly_uniformx2_c_ok by assumption. reflexivity.
Qed.
Lemma gamma1x2_c_ok : forall h seed n0 n1, hctx_ok h -> is_bytes seed -> length seed = 64%nat ->
  uniform_gamma1x2_c h seed n0 n1 = CRet (uniform_gamma1x2 fips_xof seed n0 n1).
Proof.
  intros h seed n0 n1 Hh B L. unfold uniform_gamma1x2_c, shake256x2_stream_init, shake256x2_absorb. rewrite (firstn_all2 seed) by lia.
  destruct (absorb_at2 h R_SHAKE256 seed n0 n1 Hh rate2_256 B) as (s & E & A); [rewrite L; unfold roundup; cbn; lia|].
  rewrite L in E. rewrite E. cbn [cbind]. clear E. change R_SHAKE256 with 136%nat in A.
  destruct (squeeze256_at2 (h_build h) _ _ 0 5 s (proj1 Hh) A) as (s' & E & _). rewrite E. cbn [cbind fst snd]. clear E A.
  change (0 * 136)%nat with 0%nat. change (5 * 136)%nat with 680%nat.
  unfold uniform_gamma1x2, stream256. cbv zeta.
  assert (N : ((576 + SHAKE256_RATE - 1) / SHAKE256_RATE * SHAKE256_RATE)%nat = 680%nat) by (apply Nat.eqb_eq; reflexivity).
  rewrite N. reflexivity.
Qed.
Local Opaque uniform_gamma1x2_c uniform_gamma1x2.
Theorem uniform_gamma1_64_c_ok : forall h seed nonce, hctx_ok h -> is_bytes seed -> length seed = 64%nat ->
  uniform_gamma1_64_c h seed nonce = CRet (uniform_gamma1_64 fips_xof seed nonce).
Proof.
  intros h seed nonce Hh B L. unfold uniform_gamma1_64_c, uniform_gamma1_64. rewrite !gamma1x2_c_ok by assumption. cbn [cbind].
  destruct (uniform_gamma1x2 fips_xof seed (4 * nonce + 0) (4 * nonce + 1)) as [y0 y1].
  destruct (uniform_gamma1x2 fips_xof seed (4 * nonce + 2) (4 * nonce + 3)) as [y2 y3]. reflexivity.
Qed.
Local Opaque uniform_gamma1_64_c uniform_gamma1_64 matrix_expand64_c matrix_expand64.

(** ** Signing and verification *)
Local Opaque k_ntt k_invntt k_reduce k_caddq k_pointwise k_pointwise_in k_acc k_matrix_mul k_unpack_pk H256 hash2_c c_shake256 poly_challenge poly_challenge_c
  polyvec_add polyvec_sub polyvec_shiftl polyvec_chknorm polyveck_decompose polyveck_make_hint polyveck_use_hint OMEGA.
Lemma attempt64_fips : forall e h fuel mat s1 s2 t0 mu rp nonce, hctx_ok h -> is_bytes mu -> is_bytes rp -> length rp = 64%nat ->
  sign_attempt64_c e h fuel mat s1 s2 t0 mu rp nonce = sign_attempt64 e fuel fips_xof mat s1 s2 t0 mu rp nonce.
Proof.
  intros e h fuel mat s1 s2 t0 mu rp nonce Hh BM BR LR. unfold sign_attempt64_c, sign_attempt64. rewrite uniform_gamma1_64_c_ok by assumption. cbn [cbind].
  generalize (uniform_gamma1_64 fips_xof rp nonce). intro y. cbv zeta. do 5 step. apply cbind_ext; [reflexivity|intros [w1 w0]].
  rewrite hash2_fips by (exact BM || apply w1_bytes). rewrite poly_challenge_fips by apply H256_bytes. reflexivity.
Qed.
Local Opaque sign_attempt64_c sign_attempt64.
Lemma loop64_fips : forall att e h fuel mat s1 s2 t0 mu rp nonce, hctx_ok h -> is_bytes mu -> is_bytes rp -> length rp = 64%nat ->
  sign_loop64_c att e h fuel mat s1 s2 t0 mu rp nonce = sign_loop64 att e fuel fips_xof mat s1 s2 t0 mu rp nonce.
Proof.
  intros att. induction att as [|a IH]; intros e h fuel mat s1 s2 t0 mu rp nonce Hh BM BR LR; [reflexivity|]. cbn [sign_loop64_c sign_loop64].
  apply cbind_ext; [apply attempt64_fips; assumption|]. intros [sig|]; [reflexivity|apply IH; assumption].
Qed.
Local Opaque sign_loop64_c sign_loop64.
Theorem sign64_fips : forall att e h fuel m sk, hctx_ok h -> is_bytes m -> is_bytes sk -> length sk = 2560%nat ->
  sign_signature64_c att e h fuel m sk = sign_signature64 att e fuel fips_xof m sk.
Proof.
  intros att e h fuel m sk Hh BM BS L. unfold sign_signature64_c, sign_signature64.
  assert (E : unpack_sk sk = (slice sk 0 32, slice sk 64 64, slice sk 32 32, snd (fst (fst (unpack_sk sk))), snd (fst (unpack_sk sk)), snd (unpack_sk sk))) by reflexivity.
  rewrite E. generalize (snd (fst (fst (unpack_sk sk)))). intro t0. generalize (snd (fst (unpack_sk sk))). intro s1. generalize (snd (unpack_sk sk)). intro s2. clear E.
  assert (B1 := slice_bytes sk 0 32 BS). assert (B2 := slice_bytes sk 64 64 BS). assert (B3 := slice_bytes sk 32 32 BS).
  assert (L1 : length (slice sk 0 32) = 32%nat) by (apply slice_length; lia). revert L1 B1 B2 B3.
  generalize (slice sk 0 32) (slice sk 64 64) (slice sk 32 32). intros rho tr key L1 B1 B2 B3. cbv zeta.
  rewrite hash2_fips by assumption. assert (MB := H256_bytes fips_xof 64 (tr ++ m)). revert MB. generalize (H256 fips_xof 64 (tr ++ m)). intros mu MB.
  rewrite shake256_fips.
  - assert (RB := H256_bytes fips_xof 64 (key ++ repeat 0 32 ++ mu)). assert (RL := H256_length fips_xof 64 (key ++ repeat 0 32 ++ mu)).
    revert RB RL. generalize (H256 fips_xof 64 (key ++ repeat 0 32 ++ mu)). intros rp RB RL.
    apply cbind_ext; [apply matrix_expand64_c_ok; assumption|intro mat]. do 3 step. apply loop64_fips; assumption.
  - apply Forall_app. split; [exact B3|]. apply Forall_app. split; [|exact MB]. apply Forall_forall. intros x X. apply repeat_spec in X. subst x. unfold is_byte. lia.
Qed.
Theorem verify64_fips : forall e hc fuel sig m pk, hctx_ok hc -> ctx64_ok e -> is_bytes sig -> is_bytes m -> is_bytes pk -> length pk = 1312%nat ->
  verify_signature64_c e hc fuel sig m pk = verify_signature64 e fuel fips_xof sig m pk.
Proof.
  intros e hc fuel sig m pk Hh He BS BM BP L. unfold verify_signature64_c, verify_signature64. destruct (negb _); [reflexivity|].
  rewrite k_unpack_pk_ok by assumption. cbn [cbind].
  assert (B1 := slice_bytes pk 0 32 BP). assert (L1 : length (slice pk 0 32) = 32%nat) by (apply slice_length; lia).
  assert (E : unpack_pk pk = (slice pk 0 32, snd (unpack_pk pk))) by reflexivity. rewrite E.
  generalize (snd (unpack_pk pk)). intro t1. clear E. revert B1 L1. generalize (slice pk 0 32). intros rho B1 L1.
  destruct (unpack_sig sig) as [[[c z] h]|] eqn:U; [|reflexivity].
  assert (BC : is_bytes c).
  { unfold unpack_sig in U. destruct (unpack_hint _); [|discriminate U]. assert (c = slice sig 0 32) as -> by congruence. apply slice_bytes, BS. }
  assert (BF : is_bytes (firstn 1312 pk)) by (apply is_bytes_firstn, BP). revert BF. generalize (firstn 1312 pk). intros pk' BF.
  clear U BS BP L. step. destruct x; [reflexivity|]. cbv zeta.
  rewrite shake256_fips by exact BF. rewrite hash2_fips by (exact BM || apply H256_bytes).
  assert (MB := H256_bytes fips_xof 64 (H256 fips_xof 64 pk' ++ m)). revert MB. generalize (H256 fips_xof 64 (H256 fips_xof 64 pk' ++ m)). intros mu MB.
  apply cbind_ext; [apply poly_challenge_fips, BC|intro cp]. apply cbind_ext; [apply matrix_expand64_c_ok; assumption|intro mat]. do 11 step.
  rewrite hash2_fips by (exact MB || apply w1_bytes). reflexivity.
Qed.
Local Opaque sign_signature64_c sign_signature64 verify_signature64_c verify_signature64 sign_c verify_c sign_signature verify_signature keypair_c keypair_det.

(** For every secret key, message, budget, contents of the registers and of uninitialised memory and
    either Keccak: signing with the AArch64 build, from its hash instructions up, returns the bytes
    that signing with the portable C code returns, when six blocks of SHAKE128 hold enough candidates
    for each entry of the matrix of the key. *)
Theorem a64_sign_c : forall att e h f m sk, ctx64_ok e -> hctx_ok h -> length sk = 2560%nat -> is_bytes m -> is_bytes sk ->
  six_blocks_suffice fips_xof (firstn 32 sk) ->
  sign_signature64_c att e h (S f) m sk = sign_c att (S f) m sk.
Proof.
  intros att e h f m sk He Hh L BM BS Six. rewrite sign64_fips by assumption. rewrite sign_fips by assumption. apply a64_sign_signature; assumption.
Qed.
(** Verification decides as the portable C code. *)
Theorem a64_verify_c : forall e h f sig m pk, ctx64_ok e -> hctx_ok h -> length pk = 1312%nat -> is_bytes pk -> is_bytes sig -> is_bytes m ->
  six_blocks_suffice fips_xof (firstn 32 pk) ->
  verify_signature64_c e h (S f) sig m pk = verify_c (S f) sig m pk.
Proof.
  intros e h f sig m pk He Hh L BP BS BM Six. rewrite verify64_fips by assumption. rewrite verify_fips by assumption. apply a64_verify_signature; assumption.
Qed.
(** Without that premise, and for any signature: no access outside an array and no overflow. *)
Theorem a64_defined_c : forall att e h fuel m sk sig pk, ctx64_ok e -> hctx_ok h -> length sk = 2560%nat -> is_bytes sk -> length pk = 1312%nat -> is_bytes pk ->
  is_bytes sig -> is_bytes m ->
  sign_signature64_c att e h fuel m sk <> CUB /\ verify_signature64_c e h fuel sig m pk <> CUB.
Proof.
  intros att e h fuel m sk sig pk He Hh Lk Bk Lp Bp Bg Bm. split.
  - rewrite sign64_fips by assumption. apply a64_sign_defined; assumption.
  - rewrite verify64_fips by assumption. apply a64_verify_defined; assumption.
Qed.
(** The AArch64 verifier accepts exactly the signatures the specification of Dilithium calls valid. *)
Theorem a64_verify_spec_c : forall e h f sig m pk, ctx64_ok e -> hctx_ok h -> length pk = 1312%nat -> is_bytes pk -> is_bytes sig -> is_bytes m ->
  six_blocks_suffice fips_xof (firstn 32 pk) ->
  (verify_signature64_c e h (S f) sig m pk = CRet true <-> valid_spec (S f) fips_xof sig m pk).
Proof. intros e h f sig m pk He Hh L BP BS BM Six. rewrite a64_verify_c by assumption. apply dilithium2_verify_spec; assumption. Qed.
(** A signature made on AArch64 with a generated key is accepted by the AArch64, the portable and the
    AVX2 build, and one made by the portable or by the AVX2 build (they make the same) is accepted on
    AArch64. *)
Theorem a64_interop_c : forall e h e' yr att f f' coins pk sk m sig, ctx64_ok e -> hctx_ok h -> ctx_ok e' -> yr_ok yr -> is_bytes coins -> is_bytes m ->
  keypair_c f coins = CRet (pk, sk) -> six_blocks_suffice fips_xof (firstn 32 pk) ->
  sign_signature64_c att e h (S f') m sk = CRet sig \/ sign_c att (S f') m sk = CRet sig ->
  verify_signature64_c e h (S f') sig m pk = CRet true /\ verify_c (S f') sig m pk = CRet true /\
  verify_signature_avx_c e' yr (S f') sig m pk = CRet true.
Proof.
  intros e h e' yr att f f' coins pk sk m sig He Hh He' Y BC BM HK Six HS. pose proof HK as HK'. rewrite keypair_fips in HK' by exact BC.
  destruct (keypair_bytes _ _ _ _ _ HK') as [BP BS]. destruct (dil_keypair_sizes _ _ _ _ _ HK') as [LP LS].
  assert (Six' : six_blocks_suffice fips_xof (firstn 32 sk)) by (rewrite (key_seed _ _ _ _ _ HK'); exact Six).
  assert (HC : sign_c att (S f') m sk = CRet sig). { destruct HS as [HS|HS]; [|exact HS]. pose proof (a64_sign_c att e h f' m sk He Hh LS BM BS Six') as E. congruence. }
  assert (BG : is_bytes sig). { pose proof (sign_fips att (S f') m sk BM BS) as E. rewrite E in HC. exact (sign_bytes _ _ _ _ _ _ LS HC). }
  pose proof (dilithium2_complete f att (S f') (S f') coins pk sk m sig BC BM HK HC (le_n _)) as V.
  split; [|split; [exact V|]].
  - pose proof (a64_verify_c e h f' sig m pk He Hh LP BP BG BM Six) as E. congruence.
  - exact (avx_complete_c e' yr f att (S f') (S f') coins pk sk m sig He' Y BC BM HK HC (le_n _)).
Qed.

(** ** Examples *)
Definition some_hctx (sha3 : bool) : hctx :=
  {| h_build := some_build sha3; h_ext1 := repeat 170 14; h_ext2 := repeat 85 14; h_end1 := [1; 2]; h_end2 := [3; 4] |}.
Example some_hctx_ok : forall t, hctx_ok (some_hctx t).
Proof.
  intro t. split; [apply some_build_ok|]. unfold some_hctx; cbn [h_ext1 h_ext2].
  split; [apply Forall_forall; intros x X; apply repeat_spec in X; subst x; unfold is_byte; lia|].
  split; [apply Forall_forall; intros x X; apply repeat_spec in X; subst x; unfold is_byte; lia|]. split; reflexivity.
Qed.
