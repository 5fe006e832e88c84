(** * DilPack: the bit packing of poly.c and packing.c. *)
From Coq Require Import ZArith List Lia Bool.
From Verif Require Import Base Bits SaberPoly SaberRing DilArith DilNtt DilPoly.
Import ListNotations.
Open Scope Z_scope.

(** Conversion to [uint32_t]. *)
Definition u32 (x : Z) : Z := x mod 4294967296.

(** poly.c 541-543: 8 values t[0..7] to 3 bytes. *)
Definition eta_pack8 (t : list Z) : bytes :=
  [ u8 (at_ t 0 >> 0 .| Z.shiftl (at_ t 1) 3 .| Z.shiftl (at_ t 2) 6);
    u8 (at_ t 2 >> 2 .| Z.shiftl (at_ t 3) 1 .| Z.shiftl (at_ t 4) 4 .| Z.shiftl (at_ t 5) 7);
    u8 (at_ t 5 >> 1 .| Z.shiftl (at_ t 6) 2 .| Z.shiftl (at_ t 7) 5) ].
(** poly.c 562-569: 3 bytes to 8 values. *)
Definition eta_unpack8 (a : bytes) : list Z :=
  [ (at_ a 0 >> 0) .& 7;
    (at_ a 0 >> 3) .& 7;
    ((at_ a 0 >> 6) .| Z.shiftl (at_ a 1) 2) .& 7;
    (at_ a 1 >> 1) .& 7;
    (at_ a 1 >> 4) .& 7;
    ((at_ a 1 >> 7) .| Z.shiftl (at_ a 2) 1) .& 7;
    (at_ a 2 >> 2) .& 7;
    (at_ a 2 >> 5) .& 7 ].
(** poly.c 526-547: [polyeta_pack]. *)
Definition polyeta_pack (a : poly) : bytes :=
  flat_map (fun c => eta_pack8 (map (fun x => u8 (ETA - x)) c)) (chunks_exact 8 a).
(** poly.c 557-582: [polyeta_unpack]. *)
Definition polyeta_unpack (b : bytes) : poly :=
  flat_map (fun c => map (fun x => ETA - x) (eta_unpack8 c)) (chunks_exact 3 b).

(** poly.c 599-603. *)
Definition t1_pack4 (a : list Z) : bytes :=
  [ u8 (at_ a 0 >> 0);
    u8 ((at_ a 0 >> 8) .| Z.shiftl (at_ a 1) 2);
    u8 ((at_ a 1 >> 6) .| Z.shiftl (at_ a 2) 4);
    u8 ((at_ a 2 >> 4) .| Z.shiftl (at_ a 3) 6);
    u8 (at_ a 3 >> 2) ].
(** poly.c 623-626. *)
Definition t1_unpack4 (a : bytes) : list Z :=
  [ ((at_ a 0 >> 0) .| Z.shiftl (at_ a 1) 8) .& 1023;
    ((at_ a 1 >> 2) .| Z.shiftl (at_ a 2) 6) .& 1023;
    ((at_ a 2 >> 4) .| Z.shiftl (at_ a 3) 4) .& 1023;
    ((at_ a 3 >> 6) .| Z.shiftl (at_ a 4) 2) .& 1023 ].
(** poly.c 594-607, 618-630: [polyt1_pack], [polyt1_unpack]. *)
Definition polyt1_pack (a : poly) : bytes := flat_map t1_pack4 (chunks_exact 4 a).
Definition polyt1_unpack (b : bytes) : poly := flat_map t1_unpack4 (chunks_exact 5 b).

(** poly.c 656-675. *)
Definition t0_pack8 (t : list Z) : bytes :=
  [ u8 (at_ t 0);
    u8 (at_ t 0 >> 8) .| u8 (Z.shiftl (at_ t 1) 5);
    u8 (at_ t 1 >> 3);
    u8 (at_ t 1 >> 11) .| u8 (Z.shiftl (at_ t 2) 2);
    u8 (at_ t 2 >> 6) .| u8 (Z.shiftl (at_ t 3) 7);
    u8 (at_ t 3 >> 1);
    u8 (at_ t 3 >> 9) .| u8 (Z.shiftl (at_ t 4) 4);
    u8 (at_ t 4 >> 4);
    u8 (at_ t 4 >> 12) .| u8 (Z.shiftl (at_ t 5) 1);
    u8 (at_ t 5 >> 7) .| u8 (Z.shiftl (at_ t 6) 6);
    u8 (at_ t 6 >> 2);
    u8 (at_ t 6 >> 10) .| u8 (Z.shiftl (at_ t 7) 3);
    u8 (at_ t 7 >> 5) ].
(** poly.c 694-728. *)
Definition t0_unpack8 (a : bytes) : list Z :=
  [ (at_ a 0 .| Z.shiftl (at_ a 1) 8) .& 8191;
    (at_ a 1 >> 5 .| Z.shiftl (at_ a 2) 3 .| Z.shiftl (at_ a 3) 11) .& 8191;
    (at_ a 3 >> 2 .| Z.shiftl (at_ a 4) 6) .& 8191;
    (at_ a 4 >> 7 .| Z.shiftl (at_ a 5) 1 .| Z.shiftl (at_ a 6) 9) .& 8191;
    (at_ a 6 >> 4 .| Z.shiftl (at_ a 7) 4 .| Z.shiftl (at_ a 8) 12) .& 8191;
    (at_ a 8 >> 1 .| Z.shiftl (at_ a 9) 7) .& 8191;
    (at_ a 9 >> 6 .| Z.shiftl (at_ a 10) 2 .| Z.shiftl (at_ a 11) 10) .& 8191;
    (at_ a 11 >> 3 .| Z.shiftl (at_ a 12) 5) .& 8191 ].
(** poly.c 641-679, 689-741: [polyt0_pack], [polyt0_unpack]. *)
Definition polyt0_pack (a : poly) : bytes :=
  flat_map (fun c => t0_pack8 (map (fun x => u32 (4096 - x)) c)) (chunks_exact 8 a).
Definition polyt0_unpack (b : bytes) : poly :=
  flat_map (fun c => map (fun x => 4096 - x) (t0_unpack8 c)) (chunks_exact 13 b).

(** poly.c 764-775. *)
Definition z_pack4 (t : list Z) : bytes :=
  [ u8 (at_ t 0);
    u8 (at_ t 0 >> 8);
    u8 (at_ t 0 >> 16) .| u8 (Z.shiftl (at_ t 1) 2);
    u8 (at_ t 1 >> 6);
    u8 (at_ t 1 >> 14) .| u8 (Z.shiftl (at_ t 2) 4);
    u8 (at_ t 2 >> 4);
    u8 (at_ t 2 >> 12) .| u8 (Z.shiftl (at_ t 3) 6);
    u8 (at_ t 3 >> 2);
    u8 (at_ t 3 >> 10) ].
(** poly.c 795-813. *)
Definition z_unpack4 (a : bytes) : list Z :=
  [ (at_ a 0 .| Z.shiftl (at_ a 1) 8 .| Z.shiftl (at_ a 2) 16) .& 262143;
    (at_ a 2 >> 2 .| Z.shiftl (at_ a 3) 6 .| Z.shiftl (at_ a 4) 14) .& 262143;
    (at_ a 4 >> 4 .| Z.shiftl (at_ a 5) 4 .| Z.shiftl (at_ a 6) 12) .& 262143;
    (at_ a 6 >> 6 .| Z.shiftl (at_ a 7) 2 .| Z.shiftl (at_ a 8) 10) .& 262143 ].
(** poly.c 753-779, 790-822: [polyz_pack], [polyz_unpack]. *)
Definition polyz_pack (a : poly) : bytes :=
  flat_map (fun c => z_pack4 (map (fun x => u32 (GAMMA1 - x)) c)) (chunks_exact 4 a).
Definition polyz_unpack (b : bytes) : poly :=
  flat_map (fun c => map (fun x => GAMMA1 - x) (z_unpack4 c)) (chunks_exact 9 b).

(** poly.c 839-844. *)
Definition w1_pack4 (a : list Z) : bytes :=
  [ u8 (at_ a 0) .| u8 (Z.shiftl (at_ a 1) 6);
    u8 (at_ a 1 >> 2) .| u8 (Z.shiftl (at_ a 2) 4);
    u8 (at_ a 2 >> 4) .| u8 (Z.shiftl (at_ a 3) 2) ].
(** poly.c 834-848: [polyw1_pack]. *)
Definition polyw1_pack (a : poly) : bytes := flat_map w1_pack4 (chunks_exact 4 a).
(** polyvec.c 408-414: [polyveck_pack_w1]. *)
Definition polyveck_pack_w1 (v : polyvec) : bytes := flat_map polyw1_pack v.

(** poly.c 457-468: [poly_uniform_gamma1]; 5 blocks are squeezed, 576 bytes are used. *)
Definition poly_uniform_gamma1 (X : xof) (seed : bytes) (nonce : Z) : poly :=
  let n := ((576 + SHAKE256_RATE - 1) / SHAKE256_RATE * SHAKE256_RATE)%nat in
  polyz_unpack (firstn 576 (squeeze (stream256 X seed nonce) 0 n)).
(** polyvec.c 46-52: [polyvecl_uniform_gamma1], nonce (uint16_t)(L * nonce + i). *)
Definition polyvecl_uniform_gamma1 (X : xof) (seed : bytes) (nonce : Z) : polyvec :=
  map (fun i => poly_uniform_gamma1 X seed (u16 (4 * nonce + Z.of_nat i))) (seq 0 4).

(** ** packing.c *)
(** Byte [off], ..., [off+n-1] of a buffer. *)
Definition slice (b : bytes) (off n : nat) : bytes := firstn n (skipn off b).

(** packing.c 15-28: [pack_pk]. *)
Definition pack_pk (rho : bytes) (t1 : polyvec) : bytes := firstn 32 rho ++ flat_map polyt1_pack t1.
(** packing.c 39-52: [unpack_pk]. *)
Definition unpack_pk (pk : bytes) : bytes * polyvec :=
  (slice pk 0 32, map (fun i => polyt1_unpack (slice pk (32 + i * 320) 320)) (seq 0 4)).
(** packing.c 67-104: [pack_sk]. *)
Definition pack_sk (rho tr key : bytes) (t0 s1 s2 : polyvec) : bytes :=
  firstn 32 rho ++ firstn 32 key ++ firstn 64 tr ++
  flat_map polyeta_pack s1 ++ flat_map polyeta_pack s2 ++ flat_map polyt0_pack t0.
(** packing.c 119-156: [unpack_sk]; returns (rho, tr, key, t0, s1, s2). *)
Definition unpack_sk (sk : bytes) : bytes * bytes * bytes * polyvec * polyvec * polyvec :=
  (slice sk 0 32, slice sk 64 64, slice sk 32 32,
   map (fun i => polyt0_unpack (slice sk (896 + i * 416) 416)) (seq 0 4),
   map (fun i => polyeta_unpack (slice sk (128 + i * 96) 96)) (seq 0 4),
   map (fun i => polyeta_unpack (slice sk (512 + i * 96) 96)) (seq 0 4)).

(** A store into a buffer: outside it, undefined. *)
Definition store (b : bytes) (i : nat) (v : Z) : crun bytes :=
  if (i <? length b)%nat then CRet (upd b i v) else CUB.
(** packing.c 191-195: the inner loop of the hint encoder; state (buffer, k). *)
Definition hint_inner (row : poly) (st : bytes * nat) (j : nat) : crun (bytes * nat) :=
  let '(b, k) := st in
  if at_ row j =? 0 then CRet (b, k)
  else do b' <- store b k (u8 (Z.of_nat j)) ;; CRet (b', S k).
(** packing.c 190-198: one row, then its cumulative count. *)
Definition hint_row (st : bytes * nat) (ir : nat * poly) : crun (bytes * nat) :=
  let '(i, row) := ir in
  do (b, k) <- foldM (hint_inner row) (seq 0 256) st ;;
  do b' <- store b (OMEGA + i) (u8 (Z.of_nat k)) ;; CRet (b', k).
(** packing.c 184-198: the OMEGA + K bytes that encode the hint. *)
Definition pack_hint (h : polyvec) : crun bytes :=
  do (b, _) <- foldM hint_row (combine (seq 0 4) h) (repeat 0 (OMEGA + 4), 0%nat) ;; CRet b.
(** packing.c 168-199: [pack_sig]. *)
Definition pack_sig (c : bytes) (z h : polyvec) : crun bytes :=
  do hb <- pack_hint h ;; CRet (firstn 32 c ++ flat_map polyz_pack z ++ hb).

(** packing.c 241-247: positions [js] of one row; [None] is return value 1. *)
Fixpoint unhint_inner (b : bytes) (k : nat) (js : list nat) (row : poly) : option poly :=
  match js with
  | [] => Some row
  | j :: r => if (k <? j)%nat && (at_ b j <=? at_ b (j - 1)) then None
              else unhint_inner b k r (upd row (Z.to_nat (at_ b j)) 1)
  end.
(** packing.c 232-250: the rows. *)
Fixpoint unhint_rows (b : bytes) (k : nat) (is : list nat) : option (polyvec * nat) :=
  match is with
  | [] => Some ([], k)
  | i :: r =>
      let c := Z.to_nat (at_ b (OMEGA + i)) in
      if (c <? k)%nat || (OMEGA <? c)%nat then None
      else match unhint_inner b k (seq k (c - k)) (repeat 0 256) with
           | None => None
           | Some row => match unhint_rows b c r with
                         | None => None
                         | Some (rows, k') => Some (row :: rows, k')
                         end
           end
  end.
(** packing.c 231-260: the hint decoder with the final check that unused bytes are 0. *)
Definition unpack_hint (b : bytes) : option polyvec :=
  match unhint_rows b 0 (seq 0 4) with
  | None => None
  | Some (rows, k) => if forallb (fun j => at_ b j =? 0) (seq k (OMEGA - k)) then Some rows else None
  end.
(** packing.c 214-260: [unpack_sig]; [None] is return value 1. *)
Definition unpack_sig (sig : bytes) : option (bytes * polyvec * polyvec) :=
  match unpack_hint (skipn 2336 sig) with
  | None => None
  | Some h => Some (slice sig 0 32, map (fun i => polyz_unpack (slice sig (32 + i * 576) 576)) (seq 0 4), h)
  end.
