(** * A64Keypair: key generation of the AArch64 build of Dilithium2
    (pqclean/crypto_sign/dilithium2/aarch64/sign.c 54-96), which the wrapper's [keypair()]
    (dilithium2.rs 200-223) runs on such machines.

    It differs from the portable code in the two-way expansion of the matrix and in the assembly
    routines; s1 and s2 are sampled one polynomial at a time by the portable C (poly.c 460-518),
    packing.c and rounding.c are the portable ones. *)
From Coq Require Import ZArith List Lia Bool.
From Verif Require Import Keccak KeccakSpec KeccakPerm KeccakSponge KeccakProps PropsKeccak KeccakX4 KeccakX4Ok FipsX4Ok A64Keccak A64Fips.
From Verif Require Import Base Bits SaberPoly SaberRing DilArith DilNtt DilNttProof DilNttEval DilNttSpec DilPoly DilPack DilCodec DilOps DilRound DilSample DilSampleSpec DilSign DilCorrect DilProps DilSpec DilSpec2 AvxBytesOk DilShake DilShake2 DilWitness.
From Verif Require Import AvxSample AvxSignOk2 AvxSpec AvxShake AvxShake2 A64Machine A64Ntt A64Elem A64Elem2 A64T1 A64Sample A64Sign A64SignOk A64SignOk2 A64Props A64Shake.
Import ListNotations.
Open Scope Z_scope.
Local Opaque StatePermute keccak_f StatePermutex2 keccakx2_absorb keccakx2_squeezeblocks rej_uniform squeeze.
Local Opaque root ntt invntt_tomont ntt64 invntt64 reduce64 caddq64 pointwise64 pointwise64_alias acc64 power2round64_alias poly_reduce poly_caddq poly_pointwise_montgomery.

(** polyvec.c 404-410 with poly.c 230-236; the high part takes the place of the argument, the low
    part goes to an array not yet written. *)
Definition k_power2round (e : ctx64) (v : polyvec) : crun (polyvec * polyvec) :=
  do l <- mapM (fun a => asm (power2round64_alias (k_v1 e) (k_j1 e) (k_mem e) a)) v ;; CRet (map fst l, map snd l).
(** sign.c 54-96; [seed] is what [randombytes] delivers. *)
Definition keypair64 (e : ctx64) (fuel : nat) (X : xof) (seed : bytes) : crun (bytes * bytes) :=
  let seedbuf := H256 X 128 (firstn 32 seed) in
  let rho := slice seedbuf 0 32 in
  let rhoprime := slice seedbuf 32 64 in
  let key := slice seedbuf 96 32 in
  do mat <- matrix_expand64 fuel X rho ;;
  do s1 <- polyvec_uniform_eta fuel X rhoprime 0 ;;
  do s2 <- polyvec_uniform_eta fuel X rhoprime 4 ;;
  do s1hat <- mapM (k_ntt e) s1 ;;
  do t <- k_matrix_mul e mat s1hat ;;
  do t <- mapM (k_reduce e) t ;;
  do t <- mapM (k_invntt e) t ;;
  do t <- polyvec_add t s2 ;;
  do t <- mapM (k_caddq e) t ;;
  do (t1, t0) <- k_power2round e t ;;
  let pk := pack_pk rho t1 in
  let tr := H256 X 64 pk in
  CRet (pk, pack_sk rho tr key t0 s1 s2).
(** The same from the hash instructions up. *)
Definition keypair64_c (e : ctx64) (h : hctx) (fuel : nat) (seed : bytes) : crun (bytes * bytes) :=
  let seedbuf := c_shake256 128 (firstn 32 seed) in
  let rho := slice seedbuf 0 32 in
  let rhoprime := slice seedbuf 32 64 in
  let key := slice seedbuf 96 32 in
  do mat <- matrix_expand64_c h fuel rho ;;
  do s1 <- polyvec_uniform_eta_c fuel rhoprime 0 ;;
  do s2 <- polyvec_uniform_eta_c fuel rhoprime 4 ;;
  do s1hat <- mapM (k_ntt e) s1 ;;
  do t <- k_matrix_mul e mat s1hat ;;
  do t <- mapM (k_reduce e) t ;;
  do t <- mapM (k_invntt e) t ;;
  do t <- polyvec_add t s2 ;;
  do t <- mapM (k_caddq e) t ;;
  do (t1, t0) <- k_power2round e t ;;
  let pk := pack_pk rho t1 in
  let tr := c_shake256 64 pk in
  CRet (pk, pack_sk rho tr key t0 s1 s2).

(** ** Proofs *)
Lemma std_in32 : forall a, std a -> Forall in32 a.
Proof. intros a [L B]. apply (pol_Forall in32); [exact L|]. intros p Hp. specialize (B p Hp). unfold in32, Q in *. lia. Qed.
Lemma k_power2round_ok : forall e v, ctx64_ok e -> vec std v -> forall r, polyveck_power2round v = CRet r -> k_power2round e v = CRet r.
Proof.
  intros e v He [Lv V] r E. unfold k_power2round. unfold polyveck_power2round in E.
  assert (G : mapM (fun a => asm (power2round64_alias (k_v1 e) (k_j1 e) (k_mem e) a)) v = mapM poly_power2round v); [|rewrite G; exact E].
  apply AvxSample.mapM_ext. intros a Ia. apply (In_nth _ _ []) in Ia. destruct Ia as (i & Hi & <-). rewrite Lv in Hi.
  specialize (V i Hi). unfold vat in V. set (a := nth i v []) in *. clearbody a.
  assert (P : exists q, poly_power2round a = CRet q).
  { unfold poly_power2round. assert (Q1 : exists l, mapM power2round a = CRet l).
    { destruct V as [La B].
      assert (F : Forall (fun x => 0 <= x < Q) a) by (apply (pol_Forall (fun x => 0 <= x < Q)); assumption).
      clear - F. induction F as [|x a Hx F (l & IH)]; [exists []; reflexivity|].
      destruct (power2round_ok x Hx) as (x1 & x0 & E & _). exists ((x1, x0) :: l). cbn [mapM]. rewrite E. cbn [cbind]. rewrite IH. reflexivity. }
    destruct Q1 as (l & ->). cbn [cbind]. eauto. }
  destruct P as (q & P). rewrite P. destruct He as (R & _ & _ & Lm).
  destruct (power2round64_ok (k_v1 e) (k_j1 e) a (k_mem e) a q R (proj1 V) Lm (proj1 V) (std_in32 a V) P) as [_ ->]. reflexivity.
Qed.
(** The inverse transform stays well below q, so that adding s2 cannot leave the range of caddq. *)
Lemma k_invntt_ok' : forall e, ctx64_ok e -> forall a, pol Q a -> exists v, k_invntt e a = CRet v /\ pol 4190209 v /\ (forall p, (p < 256)%nat -> eqq (ev p v) (at_ a p * 4294967296)).
Proof.
  intros e He a H. destruct (k_invntt_ok e He a H) as (v & E & _ & V). exists v. split; [exact E|]. split; [|exact V].
  destruct H as [L B]. destruct He as (H1 & H2 & _). destruct (invntt64_ok (k_v1 e) (k_v2 e) (k_j1 e) (k_j2 e) a H1 H2 L B) as (r & c & E' & _ & Lr & P).
  unfold k_invntt in E. rewrite E' in E. cbn [asm] in E. assert (r = v) as <- by congruence. split; [exact Lr|]. intros p Hp. apply P. exact Hp.
Qed.
Lemma k_vec_invntt' : forall e, ctx64_ok e -> forall v, vec (pol Q) v -> exists w, mapM (k_invntt e) v = CRet w /\ vec (pol 4190209) w /\
  (forall i, (i < 4)%nat -> forall p, (p < 256)%nat -> eqq (ev p (vat w i)) (at_ (vat v i) p * 4294967296)).
Proof. intros e He v H. exact (vec_mapM (k_invntt e) (pol Q) (pol 4190209) (fun a r => forall p, (p < 256)%nat -> eqq (ev p r) (at_ a p * 4294967296)) v (k_invntt_ok' e He) H). Qed.
Local Opaque matrix_expand64 polyvec_matrix_expand polyvec_uniform_eta H256.
(** For every seed, SHAKE and machine state: the key pair of the portable build. *)
Theorem a64_keypair : forall e f X seed, ctx64_ok e -> six_blocks_suffice X (slice (H256 X 128 (firstn 32 seed)) 0 32) ->
  keypair64 e (S f) X seed = keypair_det (S f) X seed.
Proof.
  intros e f X seed He Six. unfold keypair64, keypair_det. cbv zeta.
  set (rho := slice (H256 X 128 (firstn 32 seed)) 0 32) in *. set (rp := slice (H256 X 128 (firstn 32 seed)) 32 64).
  set (key := slice (H256 X 128 (firstn 32 seed)) 96 32). clearbody rho rp key.
  destruct (matrix_expand64_ok f X rho Six) as (mat & -> & E). rewrite E.
  pose proof (safe_inv _ _ _ (matrix_expand_ok (S f) X rho) E) as M. clear E. cbn [cbind].
  destruct (uniform_eta_vec_ok (S f) X rp 0) as [->|(s1 & -> & S1)]; [reflexivity|]. cbn [cbind].
  destruct (uniform_eta_vec_ok (S f) X rp 4) as [->|(s2 & -> & S2)]; [reflexivity|]. cbn [cbind].
  assert (Q1 : vec (pol Q) s1) by (eapply vec_pol_le; [|exact S1]; unfold Q; lia).
  destruct (matrix_mul_ok mat s1 M Q1) as (zh & w & w' & r & -> & E2 & E3 & E4 & P & EV).
  cbn [cbind]. rewrite E2. cbn [cbind]. rewrite E3. cbn [cbind]. rewrite E4. cbn [cbind]. clear E2 E3 E4 zh w w'.
  destruct (vec_add_ok r s2 INVB 2 P S2) as (t & -> & Pt & At); [unfold INVB; lia|]. cbn [cbind].
  destruct (vec_caddq_ok t) as (t' & -> & St & Et). { eapply vec_pol_le; [|exact Pt]. unfold INVB, Q; lia. } cbn [cbind].
  destruct (k_vec_ntt e He s1 Q1) as (sg & -> & Tg). cbn [cbind].
  destruct (k_matrix_product e He mat s1 sg M Tg) as (b1 & -> & Pb1 & Vb1). cbn [cbind].
  destruct (k_vec_reduce e He b1) as (b2 & -> & Pb2 & Vb2). { eapply vec_pol_le; [|exact Pb1]. unfold Q; lia. } cbn [cbind].
  destruct (k_vec_invntt' e He b2) as (b3 & -> & Pb3 & Vb3). { eapply vec_pol_le; [|exact Pb2]. unfold REDB, Q; lia. } cbn [cbind].
  destruct (vec_add_ok b3 s2 4190209 2 Pb3 S2) as (b4 & -> & Pb4 & Ab4); [unfold Q; lia|]. cbn [cbind].
  destruct (k_vec_caddq e He b4) as (b5 & -> & Sb5 & Eb5). { eapply vec_pol_le; [|exact Pb4]. unfold Q; lia. } cbn [cbind].
  assert (b5 = t') as ->.
  { apply vec_std_eq; [exact Sb5|exact St|]. apply same_ev. intros i Hi p Hp.
    apply eqq_trans with (y := mrow mat s1 i p + ev p (vat s2 i)).
    - eapply eqq_trans; [apply (ev_add (vat b5 i) (vat b3 i) (vat s2 i)); intros j Hj; rewrite <- Ab4 by assumption; apply Eb5; assumption|].
      apply eqq_add; [|apply eqq_refl].
      eapply eqq_trans; [apply Vb3; assumption|].
      eapply eqq_trans; [apply eqq_mul; [apply Vb2; assumption|apply eqq_refl]|]. apply Vb1; assumption.
    - apply eqq_sym. eapply eqq_trans; [apply (ev_add (vat t' i) (vat r i) (vat s2 i)); intros j Hj; rewrite <- At by assumption; apply Et; assumption|].
      apply eqq_add; [|apply eqq_refl]. apply EV; assumption. }
  destruct (vec_power2round_ok t' St) as (t1 & t0 & E & _).
  rewrite (k_power2round_ok e t' He St _ E), E. reflexivity.
Qed.

(** Without the premise on the matrix: no access outside an array, no overflow. *)
Theorem a64_keypair_defined : forall e f X seed, ctx64_ok e -> keypair64 e f X seed <> CUB.
Proof.
  intros e f X seed He. unfold keypair64. cbv zeta.
  generalize (slice (H256 X 128 (firstn 32 seed)) 0 32) (slice (H256 X 128 (firstn 32 seed)) 32 64) (slice (H256 X 128 (firstn 32 seed)) 96 32). intros rho rp key.
  destruct (matrix_expand64_safe f X rho) as [->|(mat & -> & M)]; [discriminate|]. cbn [cbind].
  destruct (uniform_eta_vec_ok f X rp 0) as [->|(s1 & -> & S1)]; [discriminate|]. cbn [cbind].
  destruct (uniform_eta_vec_ok f X rp 4) as [->|(s2 & -> & S2)]; [discriminate|]. cbn [cbind].
  assert (Q1 : vec (pol Q) s1) by (eapply vec_pol_le; [|exact S1]; unfold Q; lia).
  destruct (k_vec_ntt e He s1 Q1) as (sg & -> & Tg). cbn [cbind].
  destruct (k_matrix_product e He mat s1 sg M Tg) as (b1 & -> & Pb1 & _). cbn [cbind].
  destruct (k_vec_reduce e He b1) as (b2 & -> & Pb2 & _). { eapply vec_pol_le; [|exact Pb1]. unfold Q; lia. } cbn [cbind].
  destruct (k_vec_invntt' e He b2) as (b3 & -> & Pb3 & _). { eapply vec_pol_le; [|exact Pb2]. unfold REDB, Q; lia. } cbn [cbind].
  destruct (vec_add_ok b3 s2 4190209 2 Pb3 S2) as (b4 & -> & Pb4 & _); [unfold Q; lia|]. cbn [cbind].
  destruct (k_vec_caddq e He b4) as (b5 & -> & Sb5 & _). { eapply vec_pol_le; [|exact Pb4]. unfold Q; lia. } cbn [cbind].
  destruct (vec_power2round_ok b5 Sb5) as (t1 & t0 & E & _). rewrite (k_power2round_ok e b5 He Sb5 _ E). discriminate.
Qed.

(** From the hash instructions up. *)
Lemma keypair64_fips : forall e h fuel seed, hctx_ok h -> is_bytes seed -> keypair64_c e h fuel seed = keypair64 e fuel fips_xof seed.
Proof.
  intros e h fuel seed Hh B. unfold keypair64_c, keypair64. rewrite shake256_fips by apply is_bytes_firstn, B.
  assert (SB := H256_bytes fips_xof 128 (firstn 32 seed)). assert (LS : length (H256 fips_xof 128 (firstn 32 seed)) = 128%nat) by apply H256_length.
  revert SB LS. generalize (H256 fips_xof 128 (firstn 32 seed)). intros sb SB LS. cbv zeta.
  apply cbind_ext; [apply matrix_expand64_c_ok; [exact Hh|apply slice_bytes, SB|apply slice_length; lia]|intro mat].
  apply cbind_ext; [apply etas_fips, slice_bytes, SB|intro s1].
  apply cbind_ext; [apply etas_fips, slice_bytes, SB|intro s2].
  do 6 step. apply cbind_ext; [reflexivity|intros [t1 t0]]. rewrite shake256_fips by apply pk_bytes, slice_bytes, SB. reflexivity.
Qed.
Local Opaque keypair64 keypair64_c keypair_c keypair_det sign_signature64_c sign_c verify_signature64_c verify_c verify_signature_avx_c.
Lemma keypair_rho : forall f X seed pk sk, keypair_det f X seed = CRet (pk, sk) -> firstn 32 pk = slice (H256 X 128 (firstn 32 seed)) 0 32.
Proof.
  intros f X seed pk sk. with_strategy transparent [keypair_det] (unfold keypair_det). cbv zeta.
  assert (LS : length (H256 X 128 (firstn 32 seed)) = 128%nat) by apply H256_length.
  assert (L : length (slice (H256 X 128 (firstn 32 seed)) 0 32) = 32%nat) by (apply slice_length; lia).
  generalize dependent (slice (H256 X 128 (firstn 32 seed)) 0 32). intro rho.
  generalize (slice (H256 X 128 (firstn 32 seed)) 32 64) (slice (H256 X 128 (firstn 32 seed)) 96 32). intros rp key L.
  repeat (match goal with |- cbind ?m _ = _ -> _ => destruct m as [| |]; cbn [cbind]; [|discriminate|discriminate] end).
  match goal with x : (polyvec * polyvec)%type |- _ => destruct x as [t1 t0] end. intro E. assert (pk = pack_pk rho t1) as -> by congruence. unfold pack_pk. rewrite (firstn_all2 rho) by lia.
  rewrite firstn_app, L, Nat.sub_diag, firstn_O, app_nil_r. apply firstn_all2. lia.
Qed.
(** For every seed, machine state and either Keccak: the pair the portable code makes from that seed. *)
Theorem a64_keypair_c : forall e h f seed, ctx64_ok e -> hctx_ok h -> is_bytes seed ->
  (forall pk sk, keypair_c (S f) seed = CRet (pk, sk) -> six_blocks_suffice fips_xof (firstn 32 pk)) ->
  keypair_c (S f) seed <> CFuel -> keypair64_c e h (S f) seed = keypair_c (S f) seed.
Proof.
  intros e h f seed He Hh B Six NF. rewrite keypair64_fips by assumption. rewrite keypair_fips in * by exact B.
  apply a64_keypair; [exact He|]. destruct (keypair_det (S f) fips_xof seed) as [[pk sk]| |] eqn:E; [|exfalso; exact (dil_keypair_defined _ _ _ E)|].
  - pose proof (keypair_rho _ _ _ _ _ E) as R. rewrite <- R. exact (Six pk sk eq_refl).
  - exfalso. exact (NF eq_refl).
Qed.
Theorem a64_keypair_defined_c : forall e h f seed, ctx64_ok e -> hctx_ok h -> is_bytes seed -> keypair64_c e h f seed <> CUB.
Proof. intros e h f seed He Hh B. rewrite keypair64_fips by assumption. apply a64_keypair_defined, He. Qed.
(** A pair generated on AArch64 signs on AArch64 and on the portable build, and every build accepts. *)
Theorem a64_keypair_interop : forall e h e' yr att f f' seed pk sk pk' sk' m sig, ctx64_ok e -> hctx_ok h -> ctx_ok e' -> yr_ok yr -> is_bytes seed -> is_bytes m ->
  keypair_c (S f) seed = CRet (pk, sk) -> six_blocks_suffice fips_xof (firstn 32 pk) ->
  keypair64_c e h (S f) seed = CRet (pk', sk') ->
  sign_signature64_c att e h (S f') m sk' = CRet sig \/ sign_c att (S f') m sk' = CRet sig ->
  (pk', sk') = (pk, sk) /\
  verify_signature64_c e h (S f') sig m pk' = CRet true /\ verify_c (S f') sig m pk' = CRet true /\
  verify_signature_avx_c e' yr (S f') sig m pk' = CRet true.
Proof.
  intros e h e' yr att f f' seed pk sk pk' sk' m sig He Hh He' Y BC BM HK Six HK64 HS.
  assert (E : keypair64_c e h (S f) seed = keypair_c (S f) seed).
  { apply a64_keypair_c; [exact He|exact Hh|exact BC| |rewrite HK; discriminate]. intros a b E. rewrite HK in E. assert (a = pk) as -> by congruence. exact Six. }
  assert (P : (pk', sk') = (pk, sk)) by congruence. split; [exact P|]. assert (pk' = pk) as -> by congruence. assert (sk' = sk) as -> by congruence.
  exact (a64_interop_c e h e' yr att (S f) f' seed pk sk m sig He Hh He' Y BC BM HK Six HS).
Qed.

(** ** A concrete case: with the toy SHAKE of DilWitness both builds make the same pair. *)
Example a64_keypair_example : exists pk sk, keypair64 some_ctx64 300 toy_xof (repeat 7 32) = CRet (pk, sk) /\ length pk = 1312%nat /\ length sk = 2560%nat.
Proof.
  destruct dil_example as (pk & sk & sig & HK & _). exists pk, sk.
  assert (HK' : keypair_det 300 toy_xof (repeat 7 32) = CRet (pk, sk)) by (refine (dil_keypair_mono 0 300 toy_xof _ _ _ HK); lia).
  split; [|exact (dil_keypair_sizes _ _ _ _ _ HK)].
  assert (E : keypair64 some_ctx64 300 toy_xof (repeat 7 32) = keypair_det 300 toy_xof (repeat 7 32)) by (apply a64_keypair; [apply some_ctx64_ok|apply toy_six_blocks]).
  congruence.
Qed.
