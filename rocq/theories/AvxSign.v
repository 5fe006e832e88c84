(** * AvxSign: sampling, signing and verification of pqclean/crypto_sign/dilithium2/avx2 (poly.c,
    polyvec.c, sign.c).  Scalar functions whose source is that of the CLEAN build up to the name
    prefix (unpack_sk, polyt1_unpack, polyz_pack, poly_challenge, SHAKE) are those of DilPoly.v,
    DilPack.v and DilSign.v.  Hashing is reading SHAKE streams here; AvxShake.v
    replaces the streams by fips202x4.c and f1600x4.S. *)
From Coq Require Import ZArith List Lia Bool.
From Verif Require Import Base Bits SaberPoly SaberRing DilArith DilNtt DilPoly DilPack DilSign AvxMachine AvxNtt AvxPoint AvxPoly AvxBytes.
Import ListNotations.
Open Scope Z_scope.

(** What the environment decides: the vector registers on entry to an assembly routine and the
    bytes an uninitialised array holds.  One choice is used throughout a run; the theorems hold for
    every choice and no result depends on it. *)
Record ctx := Ctx { c_regs : list (list Z); c_junk : nat -> Z }.
Definition raw (e : ctx) (n : nat) : list Z := map (c_junk e) (seq 0 n).

(** ** Sampling *)
(** poly.c 431-438: the refill loop of [poly_uniform_4x]; per lane the array and the counter. *)
Definition refill (pos : nat) (s : rng) (ac : poly * nat) : crun (poly * nat) :=
  let '(a, ctr) := ac in
  let l := rej_uniform (256 - ctr) (squeeze s pos SHAKE128_RATE) in
  do a' <- patch a ctr l ;; CRet (a', (ctr + length l)%nat).
Fixpoint uniform4_loop (fuel : nat) (ss : list rng) (st : list (poly * nat)) (pos : nat) : crun (list poly) :=
  if existsb (fun ac => (snd ac <? 256)%nat) st then
    match fuel with
    | O => CFuel
    | S f => do st' <- zipM (refill pos) ss st ;; uniform4_loop f ss st' (pos + SHAKE128_RATE)
    end
  else CRet (map fst st).
(** poly.c 394-439: [poly_uniform_4x]; the buffers are 840 stream bytes and 8 bytes never written. *)
Definition poly_uniform_4x (e : ctx) (fuel : nat) (X : xof) (seed : bytes) (nonces : list Z) : crun (list poly) :=
  let ss := map (fun n => stream128 X (firstn 32 seed) (u16 n)) nonces in
  do st <- mapM (fun s => rej_uniform_avx (raw e 256) (squeeze s 0 840 ++ raw e 8)) ss ;;
  uniform4_loop fuel ss st 840.
(** polyvec.c 28-66: [polyvec_matrix_expand_row0] .. [row3]: nonces 256 i, .., 256 i + 3. *)
Definition matrix_expand_row (e : ctx) (fuel : nat) (X : xof) (rho : bytes) (i : nat) : crun polyvec :=
  do row <- poly_uniform_4x e fuel X rho (map (fun j => 256 * Z.of_nat i + Z.of_nat j) (seq 0 4)) ;;
  CRet (map (nttunpack_avx (c_regs e)) row).
(** polyvec.c 21-26: [polyvec_matrix_expand]. *)
Definition matrix_expand_avx (e : ctx) (fuel : nat) (X : xof) (rho : bytes) : crun (list polyvec) :=
  mapM (matrix_expand_row e fuel X rho) (seq 0 4).
(** poly.c 592-632: [poly_uniform_gamma1_4x]; the buffers are 680 stream bytes and 14 never written. *)
Definition gamma1_4x (e : ctx) (X : xof) (seed : bytes) (nonces : list Z) : crun polyvec :=
  mapM (fun n => polyz_unpack_avx (squeeze (stream256 X (firstn 64 seed) (u16 n)) 0 680 ++ raw e 14) 0) nonces.

(** ** Signing *)
(** sign.c 188-189, 204-205, 213-214: c times one secret polynomial. *)
Definition cmul_avx (e : ctx) (c s : poly) : poly :=
  invntt_avx (c_regs e) (pointwise_avx (c_regs e) c s (raw e 256)).
(** sign.c 187-195: z, row by row; [None] is [goto rej]. *)
Fixpoint z_rows (e : ctx) (c : poly) (s1 y : polyvec) : option polyvec :=
  match s1, y with
  | s :: s1', yi :: y' =>
      let zi := reduce_avx (add_avx yi (cmul_avx e c s)) in
      if chknorm_avx zi (GAMMA1 - BETA) then None
      else match z_rows e c s1' y' with None => None | Some z => Some (zi :: z) end
  | _, _ => Some []
  end.
(** sign.c 201-229: the hints, row by row; [rows] holds (s2, t0, w0, w1), [sig] is the signature
    buffer, whose hint area starts at 2336; [false] is [goto rej]. *)
Fixpoint h_rows (e : ctx) (c : poly) (rows : list (poly * poly * poly * poly)) (i : nat) (sig : bytes) (pos : nat) : crun (bytes * bool) :=
  match rows with
  | [] => CRet (sig, true)
  | (s2, t0, w0, w1) :: rest =>
      let w0 := reduce_avx (sub_avx w0 (cmul_avx e c s2)) in
      if chknorm_avx w0 (GAMMA2 - BETA) then CRet (sig, false) else
      let tmp := reduce_avx (cmul_avx e c t0) in
      if chknorm_avx tmp GAMMA2 then CRet (sig, false) else
      let w0 := add_avx w0 tmp in
      do (hb, n) <- make_hint_avx (raw e 256) w0 w1 ;;
      if (OMEGA <? pos + n)%nat then CRet (sig, false) else
      do sig <- patch sig (2336 + pos) (firstn n hb) ;;
      do sig <- patch sig (2336 + OMEGA + i) [u8 (Z.of_nat (pos + n))] ;;
      h_rows e c rest (S i) sig (pos + n)
  end.
(** polyvec.c 435-441: [polyveck_pack_w1] into the buffer. *)
Definition pack_w1_avx (buf : bytes) (w1 : polyvec) : crun bytes :=
  foldM (fun b ir => polyw1_pack_avx b (192 * fst ir) (snd ir)) (combine (seq 0 4) w1) buf.
(** sign.c 232-234: z into the signature. *)
Definition pack_z_avx (sig : bytes) (z : polyvec) : crun bytes :=
  foldM (fun b ir => patch b (32 + 576 * fst ir) (polyz_pack (snd ir))) (combine (seq 0 4) z) sig.
(** sign.c 160-237: one pass from the label [rej]; the buffer and whether it returned. *)
Definition sign_attempt_avx (e : ctx) (fuel : nat) (X : xof) (mat : list polyvec) (s1 s2 t0 : polyvec)
    (mu rhoprime : bytes) (nonce : Z) (sig : bytes) : crun (bytes * bool) :=
  let R := c_regs e in
  do z <- gamma1_4x e X rhoprime [nonce; nonce + 1; nonce + 2; nonce + 3] ;;
  let y := map (ntt_avx R) z in
  let w1 := map (fun row => pointwise_acc_avx R row y (raw e 256)) mat in
  let w1 := map (invntt_avx R) w1 in
  let w1 := map caddq_avx w1 in
  let d := map decompose_avx w1 in
  let w1 := map fst d in
  let w0 := map snd d in
  do sig <- pack_w1_avx sig w1 ;;
  do sig <- patch sig 0 (H256 X 32 (mu ++ firstn 768 sig)) ;;
  do c <- poly_challenge fuel X sig ;;
  let c := ntt_avx R c in
  match z_rows e c s1 z with
  | None => CRet (sig, false)
  | Some z =>
      do sig <- patch sig 2336 (repeat 0 OMEGA) ;;
      do (sig, ok) <- h_rows e c (combine (combine (combine s2 t0) w0) w1) 0 sig 0 ;;
      if (ok : bool) then do sig <- pack_z_avx sig z ;; CRet (sig, true) else CRet (sig, false)
  end.
(** sign.c 125, 160-237: the rejection loop; the 64-bit [nonce] is passed as [uint16_t]. *)
Fixpoint sign_loop_avx (att : nat) (e : ctx) (fuel : nat) (X : xof) (mat : list polyvec) (s1 s2 t0 : polyvec)
    (mu rhoprime : bytes) (nonce : Z) (sig : bytes) : crun bytes :=
  match att with
  | O => CFuel
  | S a =>
      do (sig, ok) <- sign_attempt_avx e fuel X mat s1 s2 t0 mu rhoprime nonce sig ;;
      if (ok : bool) then CRet sig
      else sign_loop_avx a e fuel X mat s1 s2 t0 mu rhoprime ((nonce + 4) mod 18446744073709551616) sig
  end.
(** sign.c 119-238: [crypto_sign_signature] into the buffer [sig]. *)
Definition sign_signature_avx (att : nat) (e : ctx) (fuel : nat) (X : xof) (sig m sk : bytes) : crun bytes :=
  let '(rho, tr, key, t0, s1, s2) := unpack_sk sk in
  let R := c_regs e in
  let mu := H256 X 64 (tr ++ m) in
  let rhoprime := H256 X 64 (key ++ repeat 0 32 ++ mu) in
  do mat <- matrix_expand_avx e fuel X rho ;;
  sign_loop_avx att e fuel X mat (map (ntt_avx R) s1) (map (ntt_avx R) s2) (map (ntt_avx R) t0) mu rhoprime 0 sig.

(** ** Verification *)
(** sign.c 337-343: the hint positions of one row, [j] from [pos] to its total; [None] is [return -1]. *)
Definition hint_row_avx (hint : bytes) (pos c : nat) : option poly := unhint_inner hint pos (seq pos (c - pos)) (repeat 0 256).
(** sign.c 315-349: one row after the other; [None] is [return -1]. [z] and [c] are transformed. *)
Fixpoint verify_rows (e : ctx) (fuel : nat) (X : xof) (pk hint : bytes) (c : poly) (z : polyvec) (is : list nat) (buf : bytes) (pos : nat)
    : crun (option (bytes * nat)) :=
  match is with
  | [] => CRet (Some (buf, pos))
  | i :: rest =>
      let R := c_regs e in
      do row <- matrix_expand_row e fuel X pk i ;;
      let w1 := pointwise_acc_avx R row z (raw e 256) in
      let h := polyt1_unpack (slice pk (32 + i * 320) 320) in
      let h := ntt_avx R (shiftl_avx h) in
      let h := pointwise_alias_avx R c h in
      let w1 := reduce_avx (sub_avx w1 h) in
      let w1 := invntt_avx R w1 in
      let t := Z.to_nat (at_ hint (OMEGA + i)) in
      if (t <? pos)%nat || (OMEGA <? t)%nat then CRet None else
      match hint_row_avx hint pos t with
      | None => CRet None
      | Some h =>
          let w1 := use_hint_avx (caddq_avx w1) h in
          do buf <- polyw1_pack_avx buf (192 * i) w1 ;;
          verify_rows e fuel X pk hint c z rest buf t
      end
  end.
(** sign.c 280-372: [crypto_sign_verify]; [true] is return value 0.  The buffer has 782 bytes. *)
Definition verify_signature_avx (e : ctx) (fuel : nat) (X : xof) (sig m pk : bytes) : crun bool :=
  if negb (length sig =? 2420)%nat then CRet false else
  let R := c_regs e in
  let hint := skipn 2336 sig in
  let mu := H256 X 64 (H256 X 64 (firstn 1312 pk) ++ m) in
  do c <- poly_challenge fuel X sig ;;
  let c := ntt_avx R c in
  do z <- mapM (fun i => do a <- polyz_unpack_avx sig (32 + 576 * i) ;; CRet (ntt_avx R a)) (seq 0 4) ;;
  do r <- verify_rows e fuel X pk hint c z (seq 0 4) (raw e 782) 0 ;;
  match r with
  | None => CRet false
  | Some (buf, pos) =>
      if forallb (fun j => at_ hint j =? 0) (seq pos (OMEGA - pos)) then
        do buf <- patch buf 0 (H256 X 32 (mu ++ firstn 768 buf)) ;;
        CRet (beq (firstn 32 buf) (firstn 32 sig))
      else CRet false
  end.
(** sign.c 388-414: [crypto_sign_open] of the AVX2 build. *)
Definition crypto_sign_open_avx (e : ctx) (fuel : nat) (X : xof) (sm pk : bytes) : crun (option bytes) :=
  if (length sm <? 2420)%nat then CRet None else
  let m := skipn 2420 sm in
  do ok <- verify_signature_avx e fuel X (firstn 2420 sm) m pk ;;
  CRet (if (ok : bool) then Some m else None).
(** sign.c 256-265: [crypto_sign] of the AVX2 build; the buffer of the signed message starts as [sm0]. *)
Definition crypto_sign_avx (att : nat) (e : ctx) (fuel : nat) (X : xof) (sm0 m sk : bytes) : crun bytes :=
  do sig <- sign_signature_avx att e fuel X (firstn 2420 sm0) m sk ;; CRet (sig ++ m).
