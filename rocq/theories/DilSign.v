(** * DilSign: sign.c of pqclean/crypto_sign/dilithium2/clean and the Rust wrapper dilithium2.rs. *)
From Coq Require Import ZArith List Lia Bool.
From Verif Require Import Base Bits SaberPoly SaberRing DilArith DilNtt DilPoly DilPack.
Import ListNotations.
Open Scope Z_scope.

(** One-shot SHAKE256 with [n] bytes of output; incremental absorption of several inputs is
    absorption of their concatenation (common/fips202.c; justified in DilShake.v). *)
Definition H256 (X : xof) (n : nat) (input : bytes) : bytes := squeeze (shake256 X input) 0 n.

(** sign.c 44-91: [crypto_sign_keypair_det]; returns (pk, sk). *)
Definition keypair_det (fuel : nat) (X : xof) (coins : bytes) : crun (bytes * bytes) :=
  let seedbuf := H256 X 128 (firstn 32 coins) in
  let rho := slice seedbuf 0 32 in
  let rhoprime := slice seedbuf 32 64 in
  let key := slice seedbuf 96 32 in
  do mat <- polyvec_matrix_expand fuel X rho ;;
  do s1 <- polyvec_uniform_eta fuel X rhoprime 0 ;;
  do s2 <- polyvec_uniform_eta fuel X rhoprime 4 ;;
  do s1hat <- polyvec_ntt s1 ;;
  do t <- polyvec_matrix_pointwise_montgomery mat s1hat ;;
  do t <- polyvec_reduce t ;;
  do t <- polyvec_invntt_tomont t ;;
  do t <- polyvec_add t s2 ;;
  do t <- polyvec_caddq t ;;
  do (t1, t0) <- polyveck_power2round t ;;
  let pk := pack_pk rho t1 in
  let tr := H256 X 64 pk in
  CRet (pk, pack_sk rho tr key t0 s1 s2).

(** sign.c 147-207: one pass from the label [rej]; [None] is [goto rej]. *)
Definition sign_attempt (fuel : nat) (X : xof) (mat : list polyvec) (s1 s2 t0 : polyvec)
    (mu rhoprime : bytes) (nonce : Z) : crun (option bytes) :=
  let y := polyvecl_uniform_gamma1 X rhoprime nonce in
  do z <- polyvec_ntt y ;;
  do w <- polyvec_matrix_pointwise_montgomery mat z ;;
  do w <- polyvec_reduce w ;;
  do w <- polyvec_invntt_tomont w ;;
  do w <- polyvec_caddq w ;;
  do (w1, w0) <- polyveck_decompose w ;;
  let ctilde := H256 X 32 (mu ++ polyveck_pack_w1 w1) in
  do cp <- poly_challenge fuel X ctilde ;;
  do cp <- ntt cp ;;
  do z <- polyvec_pointwise_poly_montgomery cp s1 ;;
  do z <- polyvec_invntt_tomont z ;;
  do z <- polyvec_add z y ;;
  do z <- polyvec_reduce z ;;
  do bad <- polyvec_chknorm z (GAMMA1 - BETA) ;;
  if (bad : bool) then CRet None else
  do h <- polyvec_pointwise_poly_montgomery cp s2 ;;
  do h <- polyvec_invntt_tomont h ;;
  do w0 <- polyvec_sub w0 h ;;
  do w0 <- polyvec_reduce w0 ;;
  do bad <- polyvec_chknorm w0 (GAMMA2 - BETA) ;;
  if (bad : bool) then CRet None else
  do h <- polyvec_pointwise_poly_montgomery cp t0 ;;
  do h <- polyvec_invntt_tomont h ;;
  do h <- polyvec_reduce h ;;
  do bad <- polyvec_chknorm h GAMMA2 ;;
  if (bad : bool) then CRet None else
  do w0 <- polyvec_add w0 h ;;
  let '(h, n) := polyveck_make_hint w0 w1 in
  if Z.of_nat OMEGA <? n then CRet None else
  do sig <- pack_sig ctilde z h ;; CRet (Some sig).

(** sign.c 115, 147-202: the rejection loop, run with a budget of attempts; the [uint16_t nonce]
    wraps. *)
Fixpoint sign_loop (att fuel : nat) (X : xof) (mat : list polyvec) (s1 s2 t0 : polyvec)
    (mu rhoprime : bytes) (nonce : Z) : crun bytes :=
  match att with
  | O => CFuel
  | S a =>
      do r <- sign_attempt fuel X mat s1 s2 t0 mu rhoprime nonce ;;
      match r with
      | Some sig => CRet sig
      | None => sign_loop a fuel X mat s1 s2 t0 mu rhoprime (u16 (nonce + 1))
      end
  end.

(** sign.c 106-209: [crypto_sign_signature]. *)
Definition sign_signature (att fuel : nat) (X : xof) (m sk : bytes) : crun bytes :=
  let '(rho, tr, key, t0, s1, s2) := unpack_sk sk in
  let mu := H256 X 64 (tr ++ m) in
  let rhoprime := H256 X 64 (key ++ repeat 0 32 ++ mu) in
  do mat <- polyvec_matrix_expand fuel X rho ;;
  do s1 <- polyvec_ntt s1 ;;
  do s2 <- polyvec_ntt s2 ;;
  do t0 <- polyvec_ntt t0 ;;
  sign_loop att fuel X mat s1 s2 t0 mu rhoprime 0.

(** sign.c 227-240: [crypto_sign]; the signed message. *)
Definition crypto_sign (att fuel : nat) (X : xof) (m sk : bytes) : crun bytes :=
  do sig <- sign_signature att fuel X m sk ;; CRet (sig ++ m).

(** sign.c 255-326: [crypto_sign_verify]; [true] is return value 0, [false] is -1. *)
Definition verify_signature (fuel : nat) (X : xof) (sig m pk : bytes) : crun bool :=
  if negb (length sig =? 2420)%nat then CRet false else
  let '(rho, t1) := unpack_pk pk in
  match unpack_sig sig with
  | None => CRet false
  | Some (c, z, h) =>
      do bad <- polyvec_chknorm z (GAMMA1 - BETA) ;;
      if (bad : bool) then CRet false else
      let mu := H256 X 64 (H256 X 64 (firstn 1312 pk) ++ m) in
      do cp <- poly_challenge fuel X c ;;
      do mat <- polyvec_matrix_expand fuel X rho ;;
      do z <- polyvec_ntt z ;;
      do w <- polyvec_matrix_pointwise_montgomery mat z ;;
      do cp <- ntt cp ;;
      do t1 <- polyvec_shiftl t1 ;;
      do t1 <- polyvec_ntt t1 ;;
      do t1 <- polyvec_pointwise_poly_montgomery cp t1 ;;
      do w <- polyvec_sub w t1 ;;
      do w <- polyvec_reduce w ;;
      do w <- polyvec_invntt_tomont w ;;
      do w <- polyvec_caddq w ;;
      do w1 <- polyveck_use_hint w h ;;
      let c2 := H256 X 32 (mu ++ polyveck_pack_w1 w1) in
      CRet (beq c c2)
  end.

(** sign.c 342-372: [crypto_sign_open]; [Some m] is return value 0 with the message, [None] is
    -1.  The zeroing of the output buffer is not modelled. *)
Definition crypto_sign_open (fuel : nat) (X : xof) (sm pk : bytes) : crun (option bytes) :=
  if (length sm <? 2420)%nat then CRet None else
  let m := skipn 2420 sm in
  do ok <- verify_signature fuel X (firstn 2420 sm) m pk ;;
  CRet (if (ok : bool) then Some m else None).

(** ** The Rust wrapper (pqcrypto-dilithium/src/dilithium2.rs) *)
(** 58-70: [PublicKey::from_bytes], [SecretKey::from_bytes]: exact length or an error. *)
Definition pk_from_bytes (b : bytes) : option bytes := if (length b =? 1312)%nat then Some b else None.
Definition sk_from_bytes (b : bytes) : option bytes := if (length b =? 2560)%nat then Some b else None.
(** 118-131: [DetachedSignature::from_bytes]: up to 2420 bytes, stored zero-padded with the
    actual length. *)
Definition sig_from_bytes (b : bytes) : option (bytes * nat) :=
  if (2420 <? length b)%nat then None else Some (b ++ repeat 0 (2420 - length b), length b).
(** 114-116: [as_bytes]. *)
Definition sig_as_bytes (s : bytes * nat) : bytes := firstn (snd s) (fst s).
(** 339-386: [verify_detached_signature] passes the array and the stored length; the C code
    reads the array only when the length is 2420. *)
Definition verify_detached (fuel : nat) (X : xof) (s : bytes * nat) (m pk : bytes) : crun bool :=
  verify_signature fuel X (sig_as_bytes s) m pk.
