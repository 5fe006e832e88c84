(** * DilShake2: key generation, signing and verification of Dilithium2 down to the bits of
    Keccak (C61).

    The functions of sign.c once more, every hash being the sequence of calls into fips202.c
    that the C code makes.  They are equal to the functions of DilSign at the SHAKE streams of
    FIPS 202, so every theorem about those is a theorem about these. *)
From Coq Require Import ZArith List Lia Bool.
From Verif Require Import Keccak KeccakSpec KeccakPerm KeccakSponge KeccakProps PropsKeccak.
From Verif Require Import Base Bits SaberPoly SaberRing DilArith DilNtt DilPoly DilPack DilCodec DilCodec2 DilSample DilSign DilCorrect DilProps DilSpec DilSpec2 DilFormat DilShake.
Import ListNotations.
Open Scope Z_scope.
Local Opaque StatePermute keccak_f poly_uniform_c poly_uniform_eta_c poly_uniform_gamma1_c poly_challenge_c
  poly_uniform poly_uniform_eta poly_uniform_gamma1 poly_challenge H256 hash2_c c_shake256 SHAKE128 SHAKE256.

(** polyvec.c 16-24, 38-44 and 164-170, 46-52. *)
Definition polyvec_matrix_expand_c (fuel : nat) (rho : bytes) : crun (list polyvec) :=
  mapM (fun i => mapM (fun j => poly_uniform_c fuel rho (Z.shiftl (Z.of_nat i) 8 + Z.of_nat j)) (seq 0 4)) (seq 0 4).
Definition polyvec_uniform_eta_c (fuel : nat) (seed : bytes) (nonce : Z) : crun polyvec :=
  mapM (fun i => poly_uniform_eta_c fuel seed (u16 (nonce + Z.of_nat i))) (seq 0 4).
Definition polyvecl_uniform_gamma1_c (seed : bytes) (nonce : Z) : polyvec :=
  map (fun i => poly_uniform_gamma1_c seed (u16 (4 * nonce + Z.of_nat i))) (seq 0 4).

(** sign.c 44-91; the in-place call at 59 absorbs before it squeezes. *)
Definition keypair_c (fuel : nat) (coins : bytes) : crun (bytes * bytes) :=
  let seedbuf := c_shake256 128 (firstn 32 coins) in
  let rho := slice seedbuf 0 32 in
  let rhoprime := slice seedbuf 32 64 in
  let key := slice seedbuf 96 32 in
  do mat <- polyvec_matrix_expand_c fuel rho ;;
  do s1 <- polyvec_uniform_eta_c fuel rhoprime 0 ;;
  do s2 <- polyvec_uniform_eta_c fuel rhoprime 4 ;;
  do s1hat <- polyvec_ntt s1 ;;
  do t <- polyvec_matrix_pointwise_montgomery mat s1hat ;;
  do t <- polyvec_reduce t ;;
  do t <- polyvec_invntt_tomont t ;;
  do t <- polyvec_add t s2 ;;
  do t <- polyvec_caddq t ;;
  do (t1, t0) <- polyveck_power2round t ;;
  let pk := pack_pk rho t1 in
  let tr := c_shake256 64 pk in
  CRet (pk, pack_sk rho tr key t0 s1 s2).

(** sign.c 147-207. *)
Definition sign_attempt_c (fuel : nat) (mat : list polyvec) (s1 s2 t0 : polyvec)
    (mu rhoprime : bytes) (nonce : Z) : crun (option bytes) :=
  let y := polyvecl_uniform_gamma1_c rhoprime nonce in
  do z <- polyvec_ntt y ;;
  do w <- polyvec_matrix_pointwise_montgomery mat z ;;
  do w <- polyvec_reduce w ;;
  do w <- polyvec_invntt_tomont w ;;
  do w <- polyvec_caddq w ;;
  do (w1, w0) <- polyveck_decompose w ;;
  let ctilde := hash2_c 32 mu (polyveck_pack_w1 w1) in
  do cp <- poly_challenge_c fuel ctilde ;;
  do cp <- ntt cp ;;
  do z <- polyvec_pointwise_poly_montgomery cp s1 ;;
  do z <- polyvec_invntt_tomont z ;;
  do z <- polyvec_add z y ;;
  do z <- polyvec_reduce z ;;
  do bad <- polyvec_chknorm z (GAMMA1 - BETA) ;;
  if (bad : bool) then CRet None else
  do h <- polyvec_pointwise_poly_montgomery cp s2 ;;
  do h <- polyvec_invntt_tomont h ;;
  do w0 <- polyvec_sub w0 h ;;
  do w0 <- polyvec_reduce w0 ;;
  do bad <- polyvec_chknorm w0 (GAMMA2 - BETA) ;;
  if (bad : bool) then CRet None else
  do h <- polyvec_pointwise_poly_montgomery cp t0 ;;
  do h <- polyvec_invntt_tomont h ;;
  do h <- polyvec_reduce h ;;
  do bad <- polyvec_chknorm h GAMMA2 ;;
  if (bad : bool) then CRet None else
  do w0 <- polyvec_add w0 h ;;
  let '(h, n) := polyveck_make_hint w0 w1 in
  if Z.of_nat OMEGA <? n then CRet None else
  do sig <- pack_sig ctilde z h ;; CRet (Some sig).
Fixpoint sign_loop_c (att fuel : nat) (mat : list polyvec) (s1 s2 t0 : polyvec)
    (mu rhoprime : bytes) (nonce : Z) : crun bytes :=
  match att with
  | O => CFuel
  | S a =>
      do r <- sign_attempt_c fuel mat s1 s2 t0 mu rhoprime nonce ;;
      match r with
      | Some sig => CRet sig
      | None => sign_loop_c a fuel mat s1 s2 t0 mu rhoprime (u16 (nonce + 1))
      end
  end.
(** sign.c 106-209; key, rnd = 0^32 and mu are adjacent in one buffer. *)
Definition sign_c (att fuel : nat) (m sk : bytes) : crun bytes :=
  let '(rho, tr, key, t0, s1, s2) := unpack_sk sk in
  let mu := hash2_c 64 tr m in
  let rhoprime := c_shake256 64 (key ++ repeat 0 32 ++ mu) in
  do mat <- polyvec_matrix_expand_c fuel rho ;;
  do s1 <- polyvec_ntt s1 ;;
  do s2 <- polyvec_ntt s2 ;;
  do t0 <- polyvec_ntt t0 ;;
  sign_loop_c att fuel mat s1 s2 t0 mu rhoprime 0.
(** sign.c 255-326. *)
Definition verify_c (fuel : nat) (sig m pk : bytes) : crun bool :=
  if negb (length sig =? 2420)%nat then CRet false else
  let '(rho, t1) := unpack_pk pk in
  match unpack_sig sig with
  | None => CRet false
  | Some (c, z, h) =>
      do bad <- polyvec_chknorm z (GAMMA1 - BETA) ;;
      if (bad : bool) then CRet false else
      let mu := hash2_c 64 (c_shake256 64 (firstn 1312 pk)) m in
      do cp <- poly_challenge_c fuel c ;;
      do mat <- polyvec_matrix_expand_c fuel rho ;;
      do z <- polyvec_ntt z ;;
      do w <- polyvec_matrix_pointwise_montgomery mat z ;;
      do cp <- ntt cp ;;
      do t1 <- polyvec_shiftl t1 ;;
      do t1 <- polyvec_ntt t1 ;;
      do t1 <- polyvec_pointwise_poly_montgomery cp t1 ;;
      do w <- polyvec_sub w t1 ;;
      do w <- polyvec_reduce w ;;
      do w <- polyvec_invntt_tomont w ;;
      do w <- polyvec_caddq w ;;
      do w1 <- polyveck_use_hint w h ;;
      let c2 := hash2_c 32 mu (polyveck_pack_w1 w1) in
      CRet (beq c c2)
  end.

Lemma mapM_ext : forall A B (f g : A -> crun B) l, (forall x, f x = g x) -> mapM f l = mapM g l.
Proof. intros A B f g l H. induction l as [|x l IH]; [reflexivity|]. cbn [mapM]. rewrite H, IH. reflexivity. Qed.
Lemma cbind_ext : forall A B (m m' : crun A) (f g : A -> crun B), m = m' -> (forall x, f x = g x) -> cbind m f = cbind m' g.
Proof. intros A B m m' f g -> H. destruct m'; cbn [cbind]; [apply H|reflexivity|reflexivity]. Qed.
Lemma expand_fips : forall fuel rho, is_bytes rho -> polyvec_matrix_expand_c fuel rho = polyvec_matrix_expand fuel fips_xof rho.
Proof. intros fuel rho B. apply mapM_ext. intro i. apply mapM_ext. intro j. apply poly_uniform_fips, B. Qed.
Lemma etas_fips : forall fuel s n, is_bytes s -> polyvec_uniform_eta_c fuel s n = polyvec_uniform_eta fuel fips_xof s n.
Proof. intros fuel s n B. apply mapM_ext. intro i. apply poly_uniform_eta_fips, B. Qed.
Lemma masks_fips : forall s n, is_bytes s -> polyvecl_uniform_gamma1_c s n = polyvecl_uniform_gamma1 fips_xof s n.
Proof. intros s n B. apply map_ext. intro i. apply poly_uniform_gamma1_fips, B. Qed.
Lemma flat_map_bytes : forall (f : poly -> bytes) l, (forall a, is_bytes (f a)) -> is_bytes (flat_map f l).
Proof. intros f l H. induction l as [|a l IH]; [constructor|]. cbn [flat_map]. apply Forall_app. split; [apply H|exact IH]. Qed.
Lemma w1_bytes : forall w, is_bytes (polyveck_pack_w1 w).
Proof. intro w. apply flat_map_bytes, polyw1_pack_bytes. Qed.
Lemma pk_bytes : forall rho t1, is_bytes rho -> is_bytes (pack_pk rho t1).
Proof. intros rho t1 B. apply Forall_app. split; [apply is_bytes_firstn, B|apply flat_map_bytes, polyt1_pack_bytes]. Qed.

Ltac step := apply cbind_ext; [reflexivity|intro].

Theorem keypair_fips : forall fuel coins, is_bytes coins -> keypair_c fuel coins = keypair_det fuel fips_xof coins.
Proof.
  intros fuel coins B. unfold keypair_c, keypair_det. rewrite shake256_fips by apply is_bytes_firstn, B.
  assert (SB := H256_bytes fips_xof 128 (firstn 32 coins)). revert SB. generalize (H256 fips_xof 128 (firstn 32 coins)). intros sb SB. cbv zeta.
  apply cbind_ext; [apply expand_fips, slice_bytes, SB|intro mat].
  apply cbind_ext; [apply etas_fips, slice_bytes, SB|intro s1].
  apply cbind_ext; [apply etas_fips, slice_bytes, SB|intro s2].
  do 6 step. apply cbind_ext; [reflexivity|intros [t1 t0]]. rewrite shake256_fips by apply pk_bytes, slice_bytes, SB. reflexivity.
Qed.
Lemma attempt_fips : forall fuel mat s1 s2 t0 mu rp nonce, is_bytes mu -> is_bytes rp ->
  sign_attempt_c fuel mat s1 s2 t0 mu rp nonce = sign_attempt fuel fips_xof mat s1 s2 t0 mu rp nonce.
Proof.
  intros fuel mat s1 s2 t0 mu rp nonce BM BR. unfold sign_attempt_c, sign_attempt. rewrite masks_fips by exact BR.
  generalize (polyvecl_uniform_gamma1 fips_xof rp nonce). intro y. cbv zeta. do 5 step. apply cbind_ext; [reflexivity|intros [w1 w0]].
  rewrite hash2_fips by (exact BM || apply w1_bytes). rewrite poly_challenge_fips by apply H256_bytes. reflexivity.
Qed.
Lemma loop_fips : forall att fuel mat s1 s2 t0 mu rp nonce, is_bytes mu -> is_bytes rp ->
  sign_loop_c att fuel mat s1 s2 t0 mu rp nonce = sign_loop att fuel fips_xof mat s1 s2 t0 mu rp nonce.
Proof.
  intros att. induction att as [|a IH]; intros fuel mat s1 s2 t0 mu rp nonce BM BR; [reflexivity|]. cbn [sign_loop_c sign_loop].
  apply cbind_ext; [apply attempt_fips; assumption|]. intros [sig|]; [reflexivity|apply IH; assumption].
Qed.
Theorem sign_fips : forall att fuel m sk, is_bytes m -> is_bytes sk -> sign_c att fuel m sk = sign_signature att fuel fips_xof m sk.
Proof.
  intros att fuel m sk BM BS. unfold sign_c, sign_signature.
  assert (E : unpack_sk sk = (slice sk 0 32, slice sk 64 64, slice sk 32 32, snd (fst (fst (unpack_sk sk))), snd (fst (unpack_sk sk)), snd (unpack_sk sk))) by reflexivity.
  rewrite E. generalize (snd (fst (fst (unpack_sk sk)))). intro t0. generalize (snd (fst (unpack_sk sk))). intro s1. generalize (snd (unpack_sk sk)). intro s2. clear E.
  assert (B1 := slice_bytes sk 0 32 BS). assert (B2 := slice_bytes sk 64 64 BS). assert (B3 := slice_bytes sk 32 32 BS). revert B1 B2 B3.
  generalize (slice sk 0 32) (slice sk 64 64) (slice sk 32 32). intros rho tr key B1 B2 B3. cbv zeta.
  rewrite hash2_fips by assumption. assert (MB := H256_bytes fips_xof 64 (tr ++ m)). revert MB. generalize (H256 fips_xof 64 (tr ++ m)). intros mu MB.
  rewrite shake256_fips.
  - assert (RB := H256_bytes fips_xof 64 (key ++ repeat 0 32 ++ mu)). revert RB. generalize (H256 fips_xof 64 (key ++ repeat 0 32 ++ mu)). intros rp RB.
    apply cbind_ext; [apply expand_fips, B1|intro mat]. do 3 step. apply loop_fips; assumption.
  - apply Forall_app. split; [exact B3|]. apply Forall_app. split; [|exact MB]. apply Forall_forall. intros x X. apply repeat_spec in X. subst x. unfold is_byte. lia.
Qed.
Theorem verify_fips : forall fuel sig m pk, is_bytes sig -> is_bytes m -> is_bytes pk ->
  verify_c fuel sig m pk = verify_signature fuel fips_xof sig m pk.
Proof.
  intros fuel sig m pk BS BM BP. unfold verify_c, verify_signature. destruct (negb _); [reflexivity|].
  assert (B1 := slice_bytes pk 0 32 BP). assert (E : unpack_pk pk = (slice pk 0 32, snd (unpack_pk pk))) by reflexivity. rewrite E.
  generalize (snd (unpack_pk pk)). intro t1. clear E. revert B1. generalize (slice pk 0 32). intros rho B1.
  destruct (unpack_sig sig) as [[[c z] h]|] eqn:U; [|reflexivity].
  assert (BC : is_bytes c).
  { unfold unpack_sig in U. destruct (unpack_hint _); [|discriminate U]. assert (c = slice sig 0 32) as -> by congruence. apply slice_bytes, BS. }
  assert (BF : is_bytes (firstn 1312 pk)) by (apply is_bytes_firstn, BP). revert BF. generalize (firstn 1312 pk). intros pk' BF.
  clear U BS BP. step. destruct x; [reflexivity|]. cbv zeta.
  rewrite shake256_fips by exact BF. rewrite hash2_fips by (exact BM || apply H256_bytes).
  assert (MB := H256_bytes fips_xof 64 (H256 fips_xof 64 pk' ++ m)). revert MB. generalize (H256 fips_xof 64 (H256 fips_xof 64 pk' ++ m)). intros mu MB.
  apply cbind_ext; [apply poly_challenge_fips, BC|intro cp]. apply cbind_ext; [apply expand_fips, B1|intro mat]. do 11 step.
  rewrite hash2_fips by (exact MB || apply w1_bytes). reflexivity.
Qed.

(** ** What the scheme outputs is bytes *)
Lemma keypair_bytes : forall fuel X coins pk sk, keypair_det fuel X coins = CRet (pk, sk) -> is_bytes pk /\ is_bytes sk.
Proof.
  intros fuel X coins pk sk H. pose proof (safe_inv _ _ _ (keypair_ok fuel X coins) H) as K. cbn [fst snd] in K.
  destruct K as (rho & key & mat & t1 & t0 & s1 & s2 & (Er & Ek & _) & _ & _ & _ & _ & _ & _ & _ & _ & Ep & Es & _).
  assert (BR : is_bytes rho) by (rewrite Er; apply slice_bytes, H256_bytes). assert (BK : is_bytes key) by (rewrite Ek; apply slice_bytes, H256_bytes).
  clear Er Ek. split; [rewrite Ep; apply pk_bytes, BR|]. rewrite Es. generalize (H256_bytes X 64 pk). generalize (H256 X 64 pk). intros tr BT. unfold pack_sk.
  repeat (apply Forall_app; split); first [apply is_bytes_firstn; assumption | apply flat_map_bytes, polyeta_pack_bytes | apply flat_map_bytes, polyt0_pack_bytes].
Qed.
Lemma hint_bytes : forall h H, hint_format h H -> is_bytes H.
Proof.
  intros h H (_ & p0 & p1 & p2 & p3 & F). cbv zeta in F. destruct F as (B & _ & L & ->).
  assert (B0 := proj2 (B 0%nat ltac:(lia))). assert (B1 := proj2 (B 1%nat ltac:(lia))). assert (B2 := proj2 (B 2%nat ltac:(lia))). assert (B3 := proj2 (B 3%nat ltac:(lia))).
  cbn [nth] in *. cbn [concat] in *. rewrite !app_length in L. cbn [List.length] in L.
  apply Forall_app. split; [repeat (apply Forall_app; split); (assumption || constructor)|].
  apply Forall_app. split; [apply Forall_forall; intros x X; apply repeat_spec in X; subst x; unfold is_byte; lia|].
  repeat constructor; lia.
Qed.
Lemma sign_bytes : forall att fuel X m sk sig, length sk = 2560%nat -> sign_signature att fuel X m sk = CRet sig -> is_bytes sig.
Proof.
  intros att fuel X m sk sig L H. destruct (dil_sign_format att fuel X m sk sig L H) as (c & z & h & (_ & _ & Lc & Z0 & HB & E & (_ & BZ & _) & HF) & _ & _).
  pose proof (safe_inv _ _ _ (sign_signature_ok att fuel X m sk L) H) as A. cbv beta in A.
  destruct A as (rho & tr & key & t0 & s1 & s2 & mat & _ & _ & _ & A).
  destruct A as (ct & c' & z' & h' & w1 & a0 & g & Es & Ect & _).
  assert (BC : is_bytes c).
  { assert (Lct : length ct = 32%nat) by (rewrite Ect; apply H256_length). assert (Bct : is_bytes ct) by (rewrite Ect; apply H256_bytes).
    unfold pack_sig in Es. destruct (pack_hint h') as [hb| |]; try discriminate Es. cbn [cbind] in Es.
    assert (Q : sig = firstn 32 ct ++ flat_map polyz_pack z' ++ hb) by congruence. rewrite E in Q. apply (f_equal (firstn 32)) in Q.
    rewrite (firstn_all2 ct) in Q by lia. rewrite <- Lc in Q at 1. rewrite <- Lct in Q. rewrite !firstn_app, !firstn_all, !Nat.sub_diag, !firstn_O, !app_nil_r in Q.
    rewrite Q. exact Bct. }
  rewrite E. apply Forall_app. split; [exact BC|]. apply Forall_app. split; [exact BZ|]. exact (hint_bytes h HB HF).
Qed.

(** ** The concrete scheme *)
(** What it signs with a key it has generated, it accepts. *)
Theorem dilithium2_complete : forall f1 a f2 f3 coins pk sk m sig, is_bytes coins -> is_bytes m ->
  keypair_c f1 coins = CRet (pk, sk) -> sign_c a f2 m sk = CRet sig -> (f2 <= f3)%nat ->
  verify_c f3 sig m pk = CRet true.
Proof.
  intros f1 a f2 f3 coins pk sk m sig BC BM HK HS F. rewrite keypair_fips in HK by exact BC.
  destruct (keypair_bytes _ _ _ _ _ HK) as [BP BS]. rewrite sign_fips in HS by assumption.
  destruct (dil_keypair_sizes _ _ _ _ _ HK) as [_ LS]. pose proof (sign_bytes _ _ _ _ _ _ LS HS) as BG.
  rewrite verify_fips by assumption. exact (dil_complete _ _ _ _ _ _ _ _ _ _ HK HS F).
Qed.
(** It accepts exactly the signatures that the specification of Dilithium calls valid for the
    hash functions of FIPS 202. *)
Theorem dilithium2_verify_spec : forall fuel sig m pk, length pk = 1312%nat -> is_bytes pk -> is_bytes sig -> is_bytes m ->
  (verify_c fuel sig m pk = CRet true <-> valid_spec fuel fips_xof sig m pk).
Proof.
  intros fuel sig m pk L BP BS BM. rewrite verify_fips by assumption. apply dil_verify_spec; assumption.
Qed.
(** A signature valid for two messages is a collision of SHAKE256 between two named inputs:
    [tr ++ m] against [tr ++ m'] on 64 bytes, or [mu(m) ++ w1] against [mu(m') ++ w1] on 32,
    where [tr] and [mu] are the hash values below and [w1] is what the verifier recomputes from
    the signature and the key alone. *)
Theorem dilithium2_message_binding : forall fuel sig m m' pk, length pk = 1312%nat -> is_bytes pk -> is_bytes sig -> is_bytes m -> is_bytes m' ->
  verify_c fuel sig m pk = CRet true -> verify_c fuel sig m' pk = CRet true -> m <> m' ->
  exists tr mu mu' w1, is_bytes tr /\ is_bytes mu /\ is_bytes mu' /\ sig_w1 fuel fips_xof sig pk w1 /\
    bits_of_bytes tr = SHAKE256 (bits_of_bytes pk) 512 /\
    bits_of_bytes mu = SHAKE256 (bits_of_bytes (tr ++ m)) 512 /\
    bits_of_bytes mu' = SHAKE256 (bits_of_bytes (tr ++ m')) 512 /\
    (mu = mu' \/ (mu <> mu' /\ SHAKE256 (bits_of_bytes (mu ++ polyveck_pack_w1 w1)) 256 = SHAKE256 (bits_of_bytes (mu' ++ polyveck_pack_w1 w1)) 256)).
Proof.
  intros fuel sig m m' pk L BP BS BM BM' H H' N. rewrite verify_fips in H, H' by assumption.
  assert (WB : forall w, is_bytes (polyveck_pack_w1 w)).
  { intro w. unfold polyveck_pack_w1. induction w as [|r w IH]; [constructor|]. cbn [flat_map]. apply Forall_app. split; [apply polyw1_pack_bytes|exact IH]. }
  assert (HB : forall n x, is_bytes x -> bits_of_bytes (H256 fips_xof n x) = SHAKE256 (bits_of_bytes x) (8 * n)).
  { intros n x Bx. rewrite <- shake256_fips by exact Bx. destruct (shake256_fips202 x n Bx) as (_ & _ & E). exact E. }
  pose proof (dil_message_binding fuel fips_xof sig m m' pk L BS H H' N) as D. cbv zeta beta in D.
  destruct (proj1 (dil_verify_split _ _ _ _ _ _ L BS H) eq_refl) as (_ & w1 & W & _).
  assert (BT : is_bytes (H256 fips_xof 64 pk)) by apply H256_bytes.
  assert (B1 : is_bytes (H256 fips_xof 64 pk ++ m)) by (apply Forall_app; auto).
  assert (B2 : is_bytes (H256 fips_xof 64 pk ++ m')) by (apply Forall_app; auto).
  pose proof (HB 64%nat _ BP) as E0. pose proof (HB 64%nat _ B1) as E1. pose proof (HB 64%nat _ B2) as E2.
  assert (BM1 : is_bytes (H256 fips_xof 64 (H256 fips_xof 64 pk ++ m))) by apply H256_bytes.
  assert (BM2 : is_bytes (H256 fips_xof 64 (H256 fips_xof 64 pk ++ m'))) by apply H256_bytes.
  revert BT BM1 BM2 D E0 E1 E2. generalize (H256 fips_xof 64 pk) as tr. intros tr.
  generalize (H256 fips_xof 64 (tr ++ m)) as mu. intro mu. generalize (H256 fips_xof 64 (tr ++ m')) as mu'. intros mu' BT BM1 BM2 D E0 E1 E2.
  exists tr, mu, mu', w1. repeat (split; [assumption|]).
  destruct D as [D|(Nmu & w & Ww & D1 & D2)]; [left; exact D|right; split; [exact Nmu|]].
  rewrite (sig_w1_unique _ _ _ _ _ _ Ww W) in D1, D2.
  assert (A1 : is_bytes (mu ++ polyveck_pack_w1 w1)) by (apply Forall_app; split; [assumption|apply WB]).
  assert (A2 : is_bytes (mu' ++ polyveck_pack_w1 w1)) by (apply Forall_app; split; [assumption|apply WB]).
  pose proof (HB 32%nat _ A1) as F1. pose proof (HB 32%nat _ A2) as F2. rewrite D1 in F1. rewrite D2 in F2.
  change 256%nat with (8 * 32)%nat. rewrite <- F1. exact F2.
Qed.
