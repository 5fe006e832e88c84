(** * AvxKeypair: key generation of the AVX2 build of Dilithium2
    (pqclean/crypto_sign/dilithium2/avx2/sign.c 49-103), from its vector instructions and hash
    functions up, is that of the portable build. *)
From Coq Require Import ZArith List Lia Bool.
From Verif Require Import Keccak KeccakSpec KeccakPerm KeccakSponge KeccakProps PropsKeccak KeccakX4 KeccakX4Ok FipsX4Ok.
From Verif Require Import Base Bits SaberPoly SaberRing DilArith DilNtt DilNttProof DilNttEval DilNttSpec DilPoly DilPack DilCodec DilCodec2 DilHint DilOps DilRound DilSample DilSampleSpec DilSign DilCorrect DilProps DilShake DilShake2.
From Verif Require Import AvxMachine AvxSym AvxSymOk AvxNtt AvxPoint AvxPoly AvxBytes AvxBytesOk AvxCodecOk AvxSign AvxSample AvxSignOk AvxSignOk2 AvxShake AvxShake2 AvxEta.
Import ListNotations.
Open Scope Z_scope.

(** rounding.c 27-44: one lane of [power2round_avx]; (a1, a0). *)
Definition power2round_lane (a : Z) : Z * Z :=
  let f1 := add_epi32 a 4095 in
  let f0 := and_si256 f1 (-8192) in
  let f1 := srli_epi32 f1 13 in
  let f0 := sub_epi32 a f0 in
  (f1, f0).
(** poly.c [poly_power2round]. *)
Definition power2round_avx (a : poly) : poly * poly := (map (fun x => fst (power2round_lane x)) a, map (fun x => snd (power2round_lane x)) a).
(** sign.c 84-96: row [i] of t, rounded; [row] is the expanded row. *)
Definition keypair_row (e : ctx) (s1hat s2 : polyvec) (i : nat) (row : polyvec) : poly * poly :=
  let R := c_regs e in
  let t1 := pointwise_acc_avx R row s1hat (raw e 256) in
  let t1 := invntt_avx R t1 in
  let t1 := add_avx t1 (nth i s2 []) in
  let t1 := caddq_avx t1 in
  power2round_avx t1.
(** sign.c 49-103; [seed] is what [randombytes] delivers.  The parts of the keys are packed one by one
    at their places, which together make up the arrays; here they are concatenated.  [polyeta_pack],
    [polyt1_pack], [polyt0_pack] are those of the portable build up to casts. *)
Definition keypair_avx_c (e : ctx) (yr : list KeccakX4.vec) (fuel : nat) (seed : bytes) : crun (bytes * bytes) :=
  let seedbuf := c_shake256 128 (firstn 32 seed) in
  let rho := slice seedbuf 0 32 in
  let rhoprime := slice seedbuf 32 64 in
  let key := slice seedbuf 96 32 in
  do s1 <- eta_4x_c e yr fuel rhoprime [0; 1; 2; 3] ;;
  do s2 <- eta_4x_c e yr fuel rhoprime [4; 5; 6; 7] ;;
  let s1hat := map (ntt_avx (c_regs e)) s1 in
  do t <- mapM (fun i => do row <- matrix_expand_row_c e yr fuel rho i ;; CRet (keypair_row e s1hat s2 i row)) (seq 0 4) ;;
  let pk := pack_pk rho (map fst t) in
  let tr := c_shake256 64 pk in
  CRet (pk, pack_sk rho tr key (map snd t) s1 s2).

(** ** Proofs *)
Local Opaque StatePermute keccak_f f1600x4 keccakx4_squeezeblocks keccakx4_absorb_once mred root ntt invntt_tomont ntt_avx invntt_avx pointwise_acc_avx nttunpack_avx
  pointwise_avx add_avx caddq_avx poly_uniform poly_uniform_eta poly_reduce poly_caddq poly_pointwise_montgomery eta_4x_c matrix_expand_row_c.
Lemma power2round_lane_ok : forall a r, 0 <= a < Q -> power2round a = CRet r -> power2round_lane a = r.
Proof.
  intros a [r1 r0] H E. destruct (power2round_ok a H) as (x1 & x0 & E' & A & B & C). rewrite E in E'. injection E' as -> ->.
  assert (X1 : x1 = (a + 4095) / 8192). { apply (Z.div_unique _ _ _ (x0 + 4095)); [left|]; lia. }
  unfold power2round_lane, add_epi32, sub_epi32, and_si256, srli_epi32. unfold Q in H.
  rewrite (i32_id (a + 4095)) by (unfold in32; lia). rewrite (Z.mod_small (a + 4095)) by lia.
  rewrite Z.shiftr_div_pow2 by lia. change (2 ^ 13) with 8192. rewrite <- X1.
  assert (L : Z.land (a + 4095) (-8192) = 8192 * x1).
  { change (-8192) with (Z.lnot (Z.ones 13)). rewrite <- Z.ldiff_land, Z.ldiff_ones_r by lia.
    rewrite Z.shiftl_mul_pow2, Z.shiftr_div_pow2 by lia. change (2 ^ 13) with 8192. rewrite <- X1. lia. }
  rewrite L. clear L. cbv zeta. rewrite !i32_id by (unfold in32; lia). f_equal. lia.
Qed.
Lemma power2round_avx_ok : forall a r, std a -> poly_power2round a = CRet r -> power2round_avx a = r.
Proof.
  intros a r [La B] E. unfold poly_power2round in E. unfold power2round_avx.
  assert (F : Forall (fun x => 0 <= x < Q) a) by (apply (pol_Forall (fun x => 0 <= x < Q)); assumption). clear La B.
  assert (G : forall l, mapM power2round a = CRet l -> map power2round_lane a = l).
  { clear E r. induction F as [|x a Hx F IH]; intros l E'; cbn [mapM] in E'; [injection E' as <-; reflexivity|].
    destruct (power2round x) as [y| |] eqn:Ex; cbn [cbind] in E'; try discriminate E'.
    destruct (mapM power2round a) as [m| |] eqn:Em; cbn [cbind] in E'; try discriminate E'. injection E' as <-.
    cbn [map]. rewrite (power2round_lane_ok x y Hx Ex), (IH m eq_refl). reflexivity. }
  destruct (mapM power2round a) as [l| |]; cbn [cbind] in E; try discriminate E. injection E as <-.
  rewrite <- (G l eq_refl), !map_map. reflexivity.
Qed.
(** The inverse transform, close enough to its value that adding s2 stays in the range of caddq. *)
Lemma invntt_near' : forall R (u : nat -> Z) f, regs_ok R ->
  (forall p, (p < 256)%nat -> - Q < u p < Q /\ eqq (u p * 4294967296) (ev p f)) ->
  let r := invntt_avx R (unpacked (map u (seq 0 256))) in
  pol INVA r /\ (forall p, (p < 256)%nat -> eqq (at_ r p) (at_ f p)).
Proof.
  intros R u f HR H. cbv zeta. set (v := map u (seq 0 256)).
  assert (Lv : length v = 256%nat) by (unfold v; rewrite map_length, seq_length; reflexivity).
  assert (Vp : forall p, (p < 256)%nat -> at_ v p = u p) by (intros p Hp; unfold v; apply nth_map_seq; exact Hp).
  assert (Bv : bnd Q v). { intros p Hp. rewrite Vp by exact Hp. specialize (H p Hp). lia. }
  destruct (invntt_avx_tight R v HR Lv Bv) as (c & Ec & Lr & Pr).
  pose proof (proj2 (invntt_near R u f HR H)) as N. fold v in N.
  split; [split; [exact Lr|]|].
  - intros p Hp. destruct (Pr p Hp). lia.
  - intros p Hp. apply (N p Hp).
Qed.
Lemma keypair_row_ok : forall e mat i s1 s1h s2 r t t' q, ctx_ok e -> matrix mat -> (i < 4)%nat -> vec (pol (9 * Q)) s1h ->
  (forall j, (j < 4)%nat -> forall p, (p < 256)%nat -> eqq (at_ (vat s1h j) p) (ev p (vat s1 j))) ->
  pol 2 (vat s2 i) ->
  (forall p, (p < 256)%nat -> eqq (ev p (vat r i)) (mrow mat s1 i p)) ->
  (forall p, (p < 256)%nat -> at_ t p = at_ (vat r i) p + at_ (vat s2 i) p) ->
  std t' -> (forall p, (p < 256)%nat -> eqq (at_ t' p) (at_ t p)) -> poly_power2round t' = CRet q ->
  keypair_row e (map unpacked s1h) s2 i (map unpacked (nth i mat [])) = q.
Proof.
  intros e mat i s1 s1h s2 r t t' q He M Hi P1 E1 P2 Er At St Et Eq. unfold keypair_row. cbv zeta.
  destruct (row_avx_ok e mat i s1h s1 He M Hi P1 E1) as (u & -> & Hu).
  destruct (invntt_near' (c_regs e) u (vat r i) (proj1 He)) as [Pw Ew].
  { intros p Hp. destruct (Hu p Hp) as [B C]. split; [exact B|]. eapply eqq_trans; [exact C|]. apply eqq_sym. apply Er; exact Hp. }
  set (w := invntt_avx _ _) in *. clearbody w. change (nth i s2 []) with (vat s2 i).
  destruct (add_avx_at w (vat s2 i) INVA 2 Pw P2) as [Pa Aa]; [unfold INVA; lia|].
  rewrite (near_caddq (add_avx w (vat s2 i)) t'); [apply power2round_avx_ok; assumption| |exact St].
  split; [apply Pa|]. intros p Hp. split.
  - destruct Pa as [_ B]. specialize (B p Hp). unfold INVA, Q in *. lia.
  - rewrite Aa by exact Hp. eapply eqq_trans; [|apply eqq_sym, Et; exact Hp]. rewrite At by exact Hp. apply eqq_add; [apply Ew; exact Hp|apply eqq_refl].
Qed.
Lemma bind_rows : forall {A B} (f : nat -> crun A) (g : nat -> A -> B) l,
  mapM (fun i => do r <- f i ;; CRet (g i r)) l = (do m <- mapM f l ;; CRet (map2 g l m)).
Proof.
  intros A B f g l. induction l as [|i l IH]; [reflexivity|]. cbn [mapM]. rewrite IH.
  destruct (f i) as [a| |]; cbn [cbind]; [|reflexivity|reflexivity]. destruct (mapM f l); reflexivity.
Qed.
Lemma etas_4x : forall e yr fuel seed, ctx_ok e -> yr_ok yr -> is_bytes seed -> length seed = 64%nat ->
  eta_4x_c e yr fuel seed [0; 1; 2; 3] = polyvec_uniform_eta fuel fips_xof seed 0 /\
  eta_4x_c e yr fuel seed [4; 5; 6; 7] = polyvec_uniform_eta fuel fips_xof seed 4.
Proof.
  intros e yr fuel seed He Y B L.
  assert (F : forall l, Forall (fun n => 0 <= n < 65536) l -> length l = 4%nat -> eta_4x_c e yr fuel seed l = mapM (poly_uniform_eta fuel fips_xof seed) l).
  { intros l F Ll. rewrite (eta_4x_ok e yr fuel seed l He Y B) by (assumption || lia). rewrite firstn_all2 by lia. reflexivity. }
  split; (rewrite F; [reflexivity| |reflexivity]); repeat (apply Forall_cons; [lia|]); apply Forall_nil.
Qed.
(** The rows of the matrix, as [mapM] over their indices. *)
Definition clean_row (fuel : nat) (X : xof) (rho : bytes) (i : nat) : crun polyvec :=
  mapM (fun j => poly_uniform fuel X rho (Z.shiftl (Z.of_nat i) 8 + Z.of_nat j)) (seq 0 4).
Lemma avx_row : forall e yr fuel rho i, ctx_ok e -> yr_ok yr -> is_bytes rho -> length rho = 32%nat -> (i < 4)%nat ->
  matrix_expand_row_c e yr fuel rho i = (do row <- clean_row fuel fips_xof rho i ;; CRet (map unpacked row)).
Proof.
  intros e yr fuel rho i He Y B L Hi. rewrite row_c_ok by (assumption || lia). rewrite matrix_row_avx_ok by assumption. rewrite firstn_all2 by lia. reflexivity.
Qed.
Lemma poly_power2round_total : forall a, std a -> exists q, poly_power2round a = CRet q.
Proof.
  intros a [La B]. unfold poly_power2round. assert (Q1 : exists l, mapM power2round a = CRet l).
  { assert (F : Forall (fun x => 0 <= x < Q) a) by (apply (pol_Forall (fun x => 0 <= x < Q)); assumption).
    clear - F. induction F as [|x a Hx F (l & IH)]; [exists []; reflexivity|].
    destruct (power2round_ok x Hx) as (x1 & x0 & E & _). exists ((x1, x0) :: l). cbn [mapM]. rewrite E. cbn [cbind]. rewrite IH. reflexivity. }
  destruct Q1 as (l & ->). cbn [cbind]. eauto.
Qed.
Lemma power2rounds : forall (g : nat -> polyvec -> poly * poly) mat t, length mat = 4%nat -> vec std t ->
  (forall i q, (i < 4)%nat -> poly_power2round (vat t i) = CRet q -> g i (nth i mat []) = q) ->
  mapM poly_power2round t = CRet (map2 g (seq 0 4) mat).
Proof.
  intros g mat t Lm [Lt V] H.
  destruct mat as [|m0 [|m1 [|m2 [|m3 [|]]]]]; try discriminate Lm. destruct t as [|t0 [|t1 [|t2 [|t3 [|]]]]]; try discriminate Lt.
  assert (K : forall i, (i < 4)%nat -> poly_power2round (vat [t0; t1; t2; t3] i) = CRet (g i (nth i [m0; m1; m2; m3] []))).
  { intros i Hi. destruct (poly_power2round_total _ (V i Hi)) as (q & E). rewrite (H i q Hi E). exact E. }
  pose proof (K 0%nat ltac:(lia)) as K0. pose proof (K 1%nat ltac:(lia)) as K1. pose proof (K 2%nat ltac:(lia)) as K2. pose proof (K 3%nat ltac:(lia)) as K3.
  clear K H V. cbv [vat nth] in K0, K1, K2, K3. cbn [mapM]. rewrite K0, K1, K2, K3. reflexivity.
Qed.
Local Opaque H256 clean_row polyvec_uniform_eta keypair_row poly_power2round.
Theorem avx_keypair_det : forall e yr fuel seed, ctx_ok e -> yr_ok yr -> is_bytes seed -> keypair_avx_c e yr fuel seed = keypair_det fuel fips_xof seed.
Proof.
  intros e yr fuel seed He Y B. unfold keypair_avx_c, keypair_det. rewrite shake256_fips by apply is_bytes_firstn, B.
  assert (SB := H256_bytes fips_xof 128 (firstn 32 seed)). assert (LS : length (H256 fips_xof 128 (firstn 32 seed)) = 128%nat) by apply H256_length.
  revert SB LS. generalize (H256 fips_xof 128 (firstn 32 seed)). intros sb SB LS. cbv zeta.
  assert (B1 := AvxBytesOk.slice_bytes sb 0 32 SB). assert (L1 : length (slice sb 0 32) = 32%nat) by (apply slice_length; lia).
  assert (B2 := AvxBytesOk.slice_bytes sb 32 64 SB). assert (L2 : length (slice sb 32 64) = 64%nat) by (apply slice_length; lia).
  generalize dependent (slice sb 0 32). intros rho B1 L1. generalize dependent (slice sb 32 64). intros rp B2 L2. generalize (slice sb 96 32). intro key. clear SB LS sb.
  destruct (etas_4x e yr fuel rp He Y B2 L2) as [-> ->].
  assert (RW : forall s1h s2, mapM (fun i => do row <- matrix_expand_row_c e yr fuel rho i ;; CRet (keypair_row e s1h s2 i row)) (seq 0 4) =
    (do mat <- polyvec_matrix_expand fuel fips_xof rho ;; CRet (map2 (fun i row => keypair_row e s1h s2 i (map unpacked row)) (seq 0 4) mat))).
  { intros s1h s2. transitivity (mapM (fun i => do row <- clean_row fuel fips_xof rho i ;; CRet (keypair_row e s1h s2 i (map unpacked row))) (seq 0 4)).
    - apply AvxSample.mapM_ext. intros i Hi. apply in_seq in Hi. cbv beta. rewrite avx_row by (assumption || lia). generalize (clean_row fuel fips_xof rho i). intros [row| |]; cbn [cbind]; reflexivity.
    - apply bind_rows. }
  pose proof (matrix_expand_ok fuel fips_xof rho) as SM.
  destruct (polyvec_matrix_expand fuel fips_xof rho) as [mat| |] eqn:EM.
  2:{ exfalso. destruct SM as [C|(? & C & _)]; discriminate C. }
  2:{ cbn [cbind]. destruct (uniform_eta_vec_ok fuel fips_xof rp 0) as [->|(s1 & -> & _)]; cbn [cbind]; [reflexivity|].
      destruct (uniform_eta_vec_ok fuel fips_xof rp 4) as [->|(s2 & -> & _)]; cbn [cbind]; [reflexivity|]. rewrite RW. reflexivity. }
  pose proof (safe_inv _ _ _ SM eq_refl) as M. clear SM EM. cbn [cbind].
  destruct (uniform_eta_vec_ok fuel fips_xof rp 0) as [->|(s1 & -> & S1)]; [reflexivity|]. cbn [cbind].
  destruct (uniform_eta_vec_ok fuel fips_xof rp 4) as [->|(s2 & -> & S2)]; [reflexivity|]. cbn [cbind]. rewrite RW. cbn [cbind]. clear RW.
  assert (Q1 : vec (pol Q) s1) by (eapply vec_pol_le; [|exact S1]; unfold Q; lia).
  destruct (vec_ntt_ok s1 Q1) as (s1h & En & P1 & E1).
  rewrite (ntt_vec_avx (c_regs e) s1 s1h (proj1 He) Q1 En).
  destruct (matrix_mul_ok mat s1 M Q1) as (zh & w & w' & r & Ez & E2 & E3 & E4 & P & EV).
  rewrite Ez. cbn [cbind]. rewrite E2. cbn [cbind]. rewrite E3. cbn [cbind]. rewrite E4. cbn [cbind]. clear Ez E2 E3 E4 zh w w'.
  destruct (vec_add_ok r s2 INVB 2 P S2) as (t & -> & Pt & At); [unfold INVB; lia|]. cbn [cbind].
  destruct (vec_caddq_ok t) as (t' & -> & St & Et). { eapply vec_pol_le; [|exact Pt]. unfold INVB, Q; lia. } cbn [cbind].
  unfold polyveck_power2round.
  assert (G : mapM poly_power2round t' = CRet (map2 (fun i row => keypair_row e (map unpacked s1h) s2 i (map unpacked row)) (seq 0 4) mat)).
  { apply power2rounds; [exact (proj1 M)|exact St|]. intros i q Hi Eq.
    apply (keypair_row_ok e mat i s1 s1h s2 r (vat t i) (vat t' i) q); try assumption.
    - exact (proj2 S2 i Hi).
    - intros p Hp. apply EV; assumption.
    - intros p Hp. apply At; assumption.
    - exact (proj2 St i Hi).
    - intros p Hp. apply Et; assumption. }
  rewrite G. cbn [cbind]. rewrite shake256_fips by (apply pk_bytes; exact B1). reflexivity.
Qed.

(** ** The hash instructions of the portable build *)
Theorem avx_keypair_c : forall e yr fuel seed, ctx_ok e -> yr_ok yr -> is_bytes seed -> keypair_avx_c e yr fuel seed = keypair_c fuel seed.
Proof. intros e yr fuel seed He Y B. rewrite avx_keypair_det by assumption. symmetry. apply keypair_fips, B. Qed.
Theorem avx_keypair_defined : forall e yr fuel seed, ctx_ok e -> yr_ok yr -> is_bytes seed -> keypair_avx_c e yr fuel seed <> CUB.
Proof. intros e yr fuel seed He Y B. rewrite avx_keypair_det by assumption. apply dil_keypair_defined. Qed.
