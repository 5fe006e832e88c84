(** * A64Sign: signing and verification of the AArch64 build of Dilithium2
    (pqclean/crypto_sign/dilithium2/aarch64).

    sign.c, packing.c, rounding.c and the C loops of poly.c and polyvec.c are, up to names, those
    of the clean build and share its models; what differs is modelled here: the assembly routines
    and the two-way samplers. *)
From Coq Require Import ZArith List Lia Bool.
From Verif Require Import Base Bits SaberPoly DilArith DilNtt DilPoly DilPack DilSign A64Machine A64Ntt A64Elem A64T1 A64Sample.
Import ListNotations.
Open Scope Z_scope.

(** What calls find in the registers they do not set (vector and general, for the two halves of a
    transform; the word registers of asm_10_to_32) and in a polynomial not yet written.  One such
    context is used for all calls; every theorem holds for any. *)
Record ctx64 := { k_v1 : list (list Z); k_v2 : list (list Z); k_j1 : list Z; k_j2 : list Z; k_w : list Z; k_mem : poly }.
Definition ctx64_ok (e : ctx64) : Prop :=
  regs64 (k_v1 e) (k_j1 e) /\ regs64 (k_v2 e) (k_j2 e) /\ length (k_w e) = 8%nat /\ length (k_mem e) = 256%nat.
(** An access outside the arrays is undefined behaviour. *)
Definition asm {A} (o : option A) : crun A := match o with Some x => CRet x | None => CUB end.

(** ntt.h 45-52 (poly.c 177-193), poly.c 60-64, 77-81, 208-212. *)
Definition k_ntt (e : ctx64) (a : poly) : crun poly := asm (ntt64 (k_v1 e) (k_v2 e) (k_j1 e) (k_j2 e) a).
Definition k_invntt (e : ctx64) (a : poly) : crun poly := asm (invntt64 (k_v1 e) (k_v2 e) (k_j1 e) (k_j2 e) a).
Definition k_reduce (e : ctx64) (a : poly) : crun poly := asm (reduce64 (k_v1 e) (k_j1 e) a).
Definition k_caddq (e : ctx64) (a : poly) : crun poly := asm (caddq64 (k_v1 e) (k_j1 e) a).
Definition k_pointwise (e : ctx64) (a b : poly) : crun poly := asm (pointwise64 (k_v1 e) (k_j1 e) (k_mem e) a b).
(** The same with the result in the place of [b]. *)
Definition k_pointwise_in (e : ctx64) (a b : poly) : crun poly := asm (pointwise64_alias (k_v1 e) (k_j1 e) a b).
(** polyvec.c 180-184 and 60-66. *)
Definition k_acc (e : ctx64) (u v : polyvec) : crun poly := asm (acc64 (k_v1 e) (k_j1 e) (k_mem e) u v).
Definition k_matrix_mul (e : ctx64) (mat : list polyvec) (v : polyvec) : crun polyvec := mapM (fun row => k_acc e row v) mat.
(** packing.c 39-52 with polyt1_unpack (poly.c 733-737). *)
Definition k_unpack_pk (e : ctx64) (pk : bytes) : crun (bytes * polyvec) :=
  do t1 <- mapM (fun i => asm (polyt1_unpack64 (k_w e) (slice pk (32 + i * 320) 320))) (seq 0 4) ;;
  CRet (slice pk 0 32, t1).

(** sign.c 153-211: one pass from the label [rej]; [None] is [goto rej]. *)
Definition sign_attempt64 (e : ctx64) (fuel : nat) (X : xof) (mat : list polyvec) (s1 s2 t0 : polyvec)
    (mu rhoprime : bytes) (nonce : Z) : crun (option bytes) :=
  let y := uniform_gamma1_64 X rhoprime nonce in
  do z <- mapM (k_ntt e) y ;;
  do w <- k_matrix_mul e mat z ;;
  do w <- mapM (k_reduce e) w ;;
  do w <- mapM (k_invntt e) w ;;
  do w <- mapM (k_caddq e) w ;;
  do (w1, w0) <- polyveck_decompose w ;;
  let ctilde := H256 X 32 (mu ++ polyveck_pack_w1 w1) in
  do cp <- poly_challenge fuel X ctilde ;;
  do cp <- k_ntt e cp ;;
  do z <- mapM (k_pointwise e cp) s1 ;;
  do z <- mapM (k_invntt e) z ;;
  do z <- polyvec_add z y ;;
  do z <- mapM (k_reduce e) z ;;
  do bad <- polyvec_chknorm z (GAMMA1 - BETA) ;;
  if (bad : bool) then CRet None else
  do h <- mapM (k_pointwise e cp) s2 ;;
  do h <- mapM (k_invntt e) h ;;
  do w0 <- polyvec_sub w0 h ;;
  do w0 <- mapM (k_reduce e) w0 ;;
  do bad <- polyvec_chknorm w0 (GAMMA2 - BETA) ;;
  if (bad : bool) then CRet None else
  do h <- mapM (k_pointwise e cp) t0 ;;
  do h <- mapM (k_invntt e) h ;;
  do h <- mapM (k_reduce e) h ;;
  do bad <- polyvec_chknorm h GAMMA2 ;;
  if (bad : bool) then CRet None else
  do w0 <- polyvec_add w0 h ;;
  let '(h, n) := polyveck_make_hint w0 w1 in
  if Z.of_nat OMEGA <? n then CRet None else
  do sig <- pack_sig ctilde z h ;; CRet (Some sig).
(** The rejection loop, with a budget of attempts. *)
Fixpoint sign_loop64 (att : nat) (e : ctx64) (fuel : nat) (X : xof) (mat : list polyvec) (s1 s2 t0 : polyvec)
    (mu rhoprime : bytes) (nonce : Z) : crun bytes :=
  match att with
  | O => CFuel
  | S a =>
      do r <- sign_attempt64 e fuel X mat s1 s2 t0 mu rhoprime nonce ;;
      match r with
      | Some sig => CRet sig
      | None => sign_loop64 a e fuel X mat s1 s2 t0 mu rhoprime (u16 (nonce + 1))
      end
  end.
(** sign.c 109-211: [crypto_sign_signature]. *)
Definition sign_signature64 (att : nat) (e : ctx64) (fuel : nat) (X : xof) (m sk : bytes) : crun bytes :=
  let '(rho, tr, key, t0, s1, s2) := unpack_sk sk in
  let mu := H256 X 64 (tr ++ m) in
  let rhoprime := H256 X 64 (key ++ repeat 0 32 ++ mu) in
  do mat <- matrix_expand64 fuel X rho ;;
  do s1 <- mapM (k_ntt e) s1 ;;
  do s2 <- mapM (k_ntt e) s2 ;;
  do t0 <- mapM (k_ntt e) t0 ;;
  sign_loop64 att e fuel X mat s1 s2 t0 mu rhoprime 0.
(** sign.c 261-333: [crypto_sign_verify]. *)
Definition verify_signature64 (e : ctx64) (fuel : nat) (X : xof) (sig m pk : bytes) : crun bool :=
  if negb (length sig =? 2420)%nat then CRet false else
  do (rho, t1) <- k_unpack_pk e pk ;;
  match unpack_sig sig with
  | None => CRet false
  | Some (c, z, h) =>
      do bad <- polyvec_chknorm z (GAMMA1 - BETA) ;;
      if (bad : bool) then CRet false else
      let mu := H256 X 64 (H256 X 64 (firstn 1312 pk) ++ m) in
      do cp <- poly_challenge fuel X c ;;
      do mat <- matrix_expand64 fuel X rho ;;
      do z <- mapM (k_ntt e) z ;;
      do w <- k_matrix_mul e mat z ;;
      do cp <- k_ntt e cp ;;
      do t1 <- polyvec_shiftl t1 ;;
      do t1 <- mapM (k_ntt e) t1 ;;
      do t1 <- mapM (k_pointwise_in e cp) t1 ;;
      do w <- polyvec_sub w t1 ;;
      do w <- mapM (k_reduce e) w ;;
      do w <- mapM (k_invntt e) w ;;
      do w <- mapM (k_caddq e) w ;;
      do w1 <- polyveck_use_hint w h ;;
      let c2 := H256 X 32 (mu ++ polyveck_pack_w1 w1) in
      CRet (beq c c2)
  end.
(** [crypto_sign_open]. *)
Definition crypto_sign_open64 (e : ctx64) (fuel : nat) (X : xof) (sm pk : bytes) : crun (option bytes) :=
  if (length sm <? 2420)%nat then CRet None else
  let m := skipn 2420 sm in
  do ok <- verify_signature64 e fuel X (firstn 2420 sm) m pk ;;
  CRet (if (ok : bool) then Some m else None).
