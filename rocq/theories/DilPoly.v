(** * DilPoly: poly.c, polyvec.c and symmetric-shake.c of pqclean/crypto_sign/dilithium2/clean.

    A [poly] is a list of 256 coefficients, a [polyvecl]/[polyveck] a list of 4 of them.
    In-place updates become new values. *)
From Coq Require Import ZArith List Lia Bool.
From Verif Require Import Base Bits SaberPoly SaberRing DilArith DilNtt.
Import ListNotations.
Open Scope Z_scope.

(** SHAKE128 and SHAKE256 (common/fips202.c) as functions from the absorbed bytes to an
    unbounded output stream; incremental absorption is concatenation, squeezing reads on
    (proved of the C code in DilShake.v). *)
Record xof := { shake128 : bytes -> rng; shake256 : bytes -> rng }.
Definition squeeze (s : rng) (off n : nat) : bytes := map (fun i => u8 (s i)) (seq off n).
Definition SHAKE128_RATE : nat := 168.
Definition SHAKE256_RATE : nat := 136.

(** symmetric-shake.c 6-15, 17-26: the stream for a seed and a 16-bit nonce. *)
Definition nonce_bytes (nonce : Z) : bytes := [u8 nonce; u8 (Z.shiftr nonce 8)].
Definition stream128 (X : xof) (seed : bytes) (nonce : Z) : rng := shake128 X (seed ++ nonce_bytes nonce).
Definition stream256 (X : xof) (seed : bytes) (nonce : Z) : rng := shake256 X (seed ++ nonce_bytes nonce).

(** Two coefficient arrays walked together. *)
Fixpoint zipM {A B C : Type} (f : A -> B -> crun C) (a : list A) (b : list B) : crun (list C) :=
  match a, b with
  | x :: a', y :: b' => do z <- f x y ;; do r <- zipM f a' b' ;; CRet (z :: r)
  | _, _ => CRet []
  end.

(** poly.c 20-29. *)
Definition poly_reduce (a : poly) : crun poly := mapM reduce32 a.
(** poly.c 39-48. *)
Definition poly_caddq (a : poly) : crun poly := mapM caddq a.
(** poly.c 59-68. *)
Definition poly_add (a b : poly) : crun poly := zipM (fun x y => chk32 (x + y)) a b.
(** poly.c 81-90. *)
Definition poly_sub (a b : poly) : crun poly := zipM (fun x y => chk32 (x - y)) a b.
(** poly.c 100-109. *)
Definition poly_shiftl (a : poly) : crun poly := mapM (fun x => shl32 x DD) a.
(** poly.c 155-164. *)
Definition poly_pointwise_montgomery (a b : poly) : crun poly :=
  zipM (fun x y => montgomery_reduce (x * y)) a b.
(** poly.c 178-187; returns (a1, a0). *)
Definition poly_power2round (a : poly) : crun (poly * poly) :=
  do l <- mapM power2round a ;; CRet (map fst l, map snd l).
(** poly.c 202-211; returns (a1, a0). *)
Definition poly_decompose (a : poly) : crun (poly * poly) :=
  do l <- mapM decompose a ;; CRet (map fst l, map snd l).
(** poly.c 226-237; returns the hints and their number. *)
Definition zlist_sum (l : list Z) : Z := fold_right Z.add 0 l.
Definition poly_make_hint (a0 a1 : poly) : poly * Z :=
  let h := map2 make_hint a0 a1 in (h, zlist_sum h).
(** poly.c 248-257. *)
Definition poly_use_hint (a h : poly) : crun poly := zipM use_hint a h.

(** poly.c 282-291: the loop of [poly_chknorm]; [true] is return value 1. *)
Fixpoint chknorm_loop (B : Z) (a : poly) : crun bool :=
  match a with
  | [] => CRet false
  | x :: r =>
      do d <- chk32 (2 * x) ;;
      do t <- chk32 (x - Z.land (Z.shiftr x 31) d) ;;
      if B <=? t then CRet true else chknorm_loop B r
  end.
(** poly.c 270-295. *)
Definition poly_chknorm (a : poly) (B : Z) : crun bool :=
  if (Q - 1) / 8 <? B then CRet true else chknorm_loop B a.

(** poly.c 311-333: [rej_uniform]; the accepted coefficients, at most [len]. *)
Fixpoint rej_uniform (len : nat) (buf : bytes) : list Z :=
  match len with
  | O => []
  | S len' =>
      match buf with
      | b0 :: b1 :: b2 :: r =>
          let t := Z.land (Z.lor (Z.lor b0 (Z.shiftl b1 8)) (Z.shiftl b2 16)) 8388607 in
          if t <? Q then t :: rej_uniform len' r else rej_uniform len r
      | _ => []
      end
  end.
(** poly.c 360-369: the refill loop of [poly_uniform]. [acc] are the coefficients sampled so
    far, [buf] the buffer just scanned, [pos] the number of stream bytes read. *)
Fixpoint uniform_loop (fuel : nat) (s : rng) (acc : list Z) (buf : bytes) (pos : nat) : crun poly :=
  if (length acc <? 256)%nat then
    match fuel with
    | O => CFuel
    | S f =>
        let off := (length buf mod 3)%nat in
        let buf' := skipn (length buf - off) buf ++ squeeze s pos SHAKE128_RATE in
        uniform_loop f s (acc ++ rej_uniform (256 - length acc) buf') buf' (pos + SHAKE128_RATE)
    end
  else CRet acc.
(** poly.c 346-371: [poly_uniform]. *)
Definition poly_uniform (fuel : nat) (X : xof) (seed : bytes) (nonce : Z) : crun poly :=
  let s := stream128 X seed nonce in
  let n := ((768 + SHAKE128_RATE - 1) / SHAKE128_RATE * SHAKE128_RATE)%nat in
  let buf := squeeze s 0 n in
  uniform_loop fuel s (rej_uniform 256 buf) buf n.

(** poly.c 397-407: one byte of [rej_eta]; unsigned arithmetic, the stored value is 2 - t. *)
Definition eta_of (t : Z) : list Z :=
  if t <? 15 then [2 - (t - Z.shiftr (205 * t) 10 * 5)] else [].
(** poly.c 387-412: [rej_eta]; the second nibble is used only while there is room. *)
Fixpoint rej_eta (len : nat) (buf : bytes) : list Z :=
  match buf with
  | [] => []
  | b :: r =>
      if (len =? 0)%nat then [] else
      let l := firstn len (eta_of (Z.land b 15) ++ eta_of (Z.shiftr b 4)) in
      l ++ rej_eta (len - length l) r
  end.
(** poly.c 439-442: the refill loop of [poly_uniform_eta]. *)
Fixpoint eta_loop (fuel : nat) (s : rng) (acc : list Z) (pos : nat) : crun poly :=
  if (length acc <? 256)%nat then
    match fuel with
    | O => CFuel
    | S f => eta_loop f s (acc ++ rej_eta (256 - length acc) (squeeze s pos SHAKE256_RATE)) (pos + SHAKE256_RATE)
    end
  else CRet acc.
(** poly.c 425-444: [poly_uniform_eta]. *)
Definition poly_uniform_eta (fuel : nat) (X : xof) (seed : bytes) (nonce : Z) : crun poly :=
  let s := stream256 X seed nonce in
  let n := ((136 + SHAKE256_RATE - 1) / SHAKE256_RATE * SHAKE256_RATE)%nat in
  eta_loop fuel s (rej_eta 256 (squeeze s 0 n)) n.

(** poly.c 501-508: draw bytes until one is at most [i]; the buffer refills continue the
    stream, so the byte at buffer position [pos] is stream byte [pos]. *)
Fixpoint draw_le (fuel : nat) (s : rng) (pos : nat) (i : Z) : crun (Z * nat) :=
  match fuel with
  | O => CFuel
  | S f => let b := u8 (s pos) in
           if i <? b then draw_le f s (S pos) i else CRet (b, S pos)
  end.
(** poly.c 500-513: one step of the shuffle; state (c, signs, pos). *)
Definition challenge_step (fuel : nat) (s : rng) (st : poly * Z * nat) (i : nat) : crun (poly * Z * nat) :=
  let '(c, signs, pos) := st in
  do (b, pos') <- draw_le fuel s pos (Z.of_nat i) ;;
  let c1 := upd c i (at_ c (Z.to_nat b)) in
  let c2 := upd c1 (Z.to_nat b) (1 - 2 * Z.land signs 1) in
  CRet (c2, Z.shiftr signs 1, pos').
(** poly.c 491-494: the sign bits from the first eight bytes. *)
Definition sign_bits (l : bytes) : Z :=
  fold_left (fun x i => Z.lor x (Z.shiftl (at_ l i) (8 * Z.of_nat i))) (seq 0 8) 0.
(** poly.c 480-515: [poly_challenge]; absorbs SEEDBYTES = 32 bytes of its argument. *)
Definition poly_challenge (fuel : nat) (X : xof) (seed : bytes) : crun poly :=
  let s := shake256 X (firstn 32 seed) in
  do (c, _, _) <- foldM (challenge_step fuel s) (seq (256 - TAU) TAU)
                    (repeat 0 256, sign_bits (squeeze s 0 8), 8%nat) ;;
  CRet c.

(** ** polyvec.c *)
Notation polyvec := (list (list Z)).

(** polyvec.c 16-24: [polyvec_matrix_expand]. *)
Definition polyvec_matrix_expand (fuel : nat) (X : xof) (rho : bytes) : crun (list polyvec) :=
  mapM (fun i => mapM (fun j => poly_uniform fuel X rho (Z.shiftl (Z.of_nat i) 8 + Z.of_nat j)) (seq 0 4)) (seq 0 4).

(** polyvec.c 38-44, 164-170: [polyvecl_uniform_eta] and [polyveck_uniform_eta]. *)
Definition polyvec_uniform_eta (fuel : nat) (X : xof) (seed : bytes) (nonce : Z) : crun polyvec :=
  mapM (fun i => poly_uniform_eta fuel X seed (u16 (nonce + Z.of_nat i))) (seq 0 4).

(** polyvec.c 54-60, 180-186; 196-202; 88-94, 265-271; 96-102, 282-288; 249-255. *)
Definition polyvec_reduce (v : polyvec) : crun polyvec := mapM poly_reduce v.
Definition polyvec_caddq (v : polyvec) : crun polyvec := mapM poly_caddq v.
Definition polyvec_ntt (v : polyvec) : crun polyvec := mapM ntt v.
Definition polyvec_invntt_tomont (v : polyvec) : crun polyvec := mapM invntt_tomont v.
Definition polyvec_shiftl (v : polyvec) : crun polyvec := mapM poly_shiftl v.
(** polyvec.c 72-78, 214-220; 233-239. *)
Definition polyvec_add (u v : polyvec) : crun polyvec := zipM poly_add u v.
Definition polyvec_sub (u v : polyvec) : crun polyvec := zipM poly_sub u v.
(** polyvec.c 104-110, 290-296. *)
Definition polyvec_pointwise_poly_montgomery (a : poly) (v : polyvec) : crun polyvec :=
  mapM (poly_pointwise_montgomery a) v.
(** polyvec.c 130-133: the accumulation loop. *)
Fixpoint acc_loop (w : poly) (u v : polyvec) : crun poly :=
  match u, v with
  | x :: u', y :: v' =>
      do t <- poly_pointwise_montgomery x y ;;
      do w' <- poly_add w t ;; acc_loop w' u' v'
  | _, _ => CRet w
  end.
(** polyvec.c 123-134: [polyvecl_pointwise_acc_montgomery]. *)
Definition polyvecl_pointwise_acc_montgomery (u v : polyvec) : crun poly :=
  match u, v with
  | x :: u', y :: v' => do w <- poly_pointwise_montgomery x y ;; acc_loop w u' v'
  | _, _ => CRet []
  end.
(** polyvec.c 26-32. *)
Definition polyvec_matrix_pointwise_montgomery (mat : list polyvec) (v : polyvec) : crun polyvec :=
  mapM (fun row => polyvecl_pointwise_acc_montgomery row v) mat.
(** polyvec.c 148-158, 310-320: [true] when some polynomial fails the check. *)
Fixpoint polyvec_chknorm (v : polyvec) (B : Z) : crun bool :=
  match v with
  | [] => CRet false
  | a :: r => do b <- poly_chknorm a B ;; if b then CRet true else polyvec_chknorm r B
  end.
(** polyvec.c 336-342, 359-365. *)
Definition polyveck_power2round (v : polyvec) : crun (polyvec * polyvec) :=
  do l <- mapM poly_power2round v ;; CRet (map fst l, map snd l).
Definition polyveck_decompose (v : polyvec) : crun (polyvec * polyvec) :=
  do l <- mapM poly_decompose v ;; CRet (map fst l, map snd l).
(** polyvec.c 378-388. *)
Definition polyveck_make_hint (v0 v1 : polyvec) : polyvec * Z :=
  let l := map2 poly_make_hint v0 v1 in (map fst l, zlist_sum (map snd l)).
(** polyvec.c 400-406. *)
Definition polyveck_use_hint (u h : polyvec) : crun polyvec := zipM poly_use_hint u h.
