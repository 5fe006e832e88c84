(** * AvxBytes: the functions of poly.c, rejsample.c and rounding.c of
    pqclean/crypto_sign/dilithium2/avx2 that move bytes between lanes, and what they write where. *)
From Coq Require Import ZArith List Lia Bool.
From Verif Require Import Base Bits SaberPoly SaberRing DilArith DilNtt DilPoly DilPack DilOps AvxPoly.
Import ListNotations.
Open Scope Z_scope.

(** ** Memory *)
(** A copy of [src] to [b + off] and a 32-byte load from [b + off]: outside the array, undefined. *)
Definition patch {A} (b : list A) (off : nat) (src : list A) : crun (list A) :=
  if (off + length src <=? length b)%nat then CRet (firstn off b ++ src ++ skipn (off + length src) b) else CUB.
Definition loadu (b : bytes) (off : nat) : crun bytes :=
  if (off + 32 <=? length b)%nat then CRet (slice b off 32) else CUB.

(** ** Intrinsics, on registers *)
(** Little-endian integers. *)
Definition le (l : bytes) : Z := fold_right (fun b x => b + 256 * x) 0 l.
Fixpoint le_bytes (n : nat) (x : Z) : bytes :=
  match n with O => [] | S k => x mod 256 :: le_bytes k (x / 256) end.
(** A register as 32 bytes, as 8 signed 32-bit lanes. *)
Definition lanes32 (b : bytes) : list Z := map (fun k => i32 (le (slice b (4 * k) 4))) (seq 0 8).
Definition bytes32 (l : list Z) : bytes := flat_map (fun x => le_bytes 4 (x mod 4294967296)) l.
(** [_mm256_permute4x64_epi64]: bits 2k, 2k+1 of [imm] choose the k-th quadword. *)
Definition permute4x64 (b : bytes) (imm : nat) : bytes :=
  flat_map (fun k => slice b (8 * ((imm / 4 ^ k) mod 4)) 8) (seq 0 4).
(** [_mm256_shuffle_epi8]: within each 16 bytes; a negative index gives 0. *)
Definition shuffle_epi8 (b : bytes) (idx : list Z) : bytes :=
  map (fun j => let i := at_ idx j in if i <? 0 then 0 else at_ b (j / 16 * 16 + Z.to_nat (i mod 16))%nat) (seq 0 32).
(** [_mm256_permutevar8x32_epi32]: the low three bits of an index count. *)
Definition permutevar8x32 (l : list Z) (idx : list Z) : list Z := map (fun i => at_ l (Z.to_nat (i mod 8))) idx.
(** [_mm256_srlv_epi32]. *)
Definition srlv_epi32 (l n : list Z) : list Z := map2 srli_epi32 l n.
(** [_mm256_packus_epi32], [_mm256_packus_epi16]: signed to unsigned with saturation, 16-byte halves
    apart. *)
Definition satu (m x : Z) : Z := if x <? 0 then 0 else if m <? x then m else x.
Definition packus_epi32 (a b : list Z) : list Z :=
  let f := map (satu 65535) in firstn 4 (f a) ++ firstn 4 (f b) ++ skipn 4 (f a) ++ skipn 4 (f b).
Definition packus_epi16 (a b : list Z) : list Z :=
  let f := map (fun w => satu 255 (s16 w)) in firstn 8 (f a) ++ firstn 8 (f b) ++ skipn 8 (f a) ++ skipn 8 (f b).
(** [_mm256_maddubs_epi16] with the byte pair (c, d) in every word of the second operand, and
    [_mm256_madd_epi16] with the word pair (c, d) in every lane of it. *)
Fixpoint pairs {A} (f : A -> A -> A) (l : list A) : list A :=
  match l with x :: y :: r => f x y :: pairs f r | _ => [] end.
Definition sats16 (x : Z) : Z := if x <? -32768 then -32768 else if 32767 <? x then 32767 else x.
Definition maddubs_epi16 (a : list Z) (c d : Z) : list Z := pairs (fun x y => sats16 (x * c + y * d)) a.
Definition madd_epi16 (a : list Z) (c d : Z) : list Z := pairs (fun x y => i32 (s16 x * c + s16 y * d)) a.
(** [_mm256_movemask_ps], [_mm_popcnt_u32]. *)
Definition movemask (l : list Z) : nat := fold_right (fun (x : Z) (m : nat) => ((if (x <? 0)%Z then 1 else 0) + 2 * m)%nat) 0%nat l.
Definition popcnt (m : nat) : nat := length (filter (Nat.testbit m) (seq 0 32)).

(** rejsample.c 7-264: [idxlut]. *)
Definition idxlut : list (list Z) := [
  [0; 0; 0; 0; 0; 0; 0; 0]; [0; 0; 0; 0; 0; 0; 0; 0]; [1; 0; 0; 0; 0; 0; 0; 0]; [0; 1; 0; 0; 0; 0; 0; 0];
  [2; 0; 0; 0; 0; 0; 0; 0]; [0; 2; 0; 0; 0; 0; 0; 0]; [1; 2; 0; 0; 0; 0; 0; 0]; [0; 1; 2; 0; 0; 0; 0; 0];
  [3; 0; 0; 0; 0; 0; 0; 0]; [0; 3; 0; 0; 0; 0; 0; 0]; [1; 3; 0; 0; 0; 0; 0; 0]; [0; 1; 3; 0; 0; 0; 0; 0];
  [2; 3; 0; 0; 0; 0; 0; 0]; [0; 2; 3; 0; 0; 0; 0; 0]; [1; 2; 3; 0; 0; 0; 0; 0]; [0; 1; 2; 3; 0; 0; 0; 0];
  [4; 0; 0; 0; 0; 0; 0; 0]; [0; 4; 0; 0; 0; 0; 0; 0]; [1; 4; 0; 0; 0; 0; 0; 0]; [0; 1; 4; 0; 0; 0; 0; 0];
  [2; 4; 0; 0; 0; 0; 0; 0]; [0; 2; 4; 0; 0; 0; 0; 0]; [1; 2; 4; 0; 0; 0; 0; 0]; [0; 1; 2; 4; 0; 0; 0; 0];
  [3; 4; 0; 0; 0; 0; 0; 0]; [0; 3; 4; 0; 0; 0; 0; 0]; [1; 3; 4; 0; 0; 0; 0; 0]; [0; 1; 3; 4; 0; 0; 0; 0];
  [2; 3; 4; 0; 0; 0; 0; 0]; [0; 2; 3; 4; 0; 0; 0; 0]; [1; 2; 3; 4; 0; 0; 0; 0]; [0; 1; 2; 3; 4; 0; 0; 0];
  [5; 0; 0; 0; 0; 0; 0; 0]; [0; 5; 0; 0; 0; 0; 0; 0]; [1; 5; 0; 0; 0; 0; 0; 0]; [0; 1; 5; 0; 0; 0; 0; 0];
  [2; 5; 0; 0; 0; 0; 0; 0]; [0; 2; 5; 0; 0; 0; 0; 0]; [1; 2; 5; 0; 0; 0; 0; 0]; [0; 1; 2; 5; 0; 0; 0; 0];
  [3; 5; 0; 0; 0; 0; 0; 0]; [0; 3; 5; 0; 0; 0; 0; 0]; [1; 3; 5; 0; 0; 0; 0; 0]; [0; 1; 3; 5; 0; 0; 0; 0];
  [2; 3; 5; 0; 0; 0; 0; 0]; [0; 2; 3; 5; 0; 0; 0; 0]; [1; 2; 3; 5; 0; 0; 0; 0]; [0; 1; 2; 3; 5; 0; 0; 0];
  [4; 5; 0; 0; 0; 0; 0; 0]; [0; 4; 5; 0; 0; 0; 0; 0]; [1; 4; 5; 0; 0; 0; 0; 0]; [0; 1; 4; 5; 0; 0; 0; 0];
  [2; 4; 5; 0; 0; 0; 0; 0]; [0; 2; 4; 5; 0; 0; 0; 0]; [1; 2; 4; 5; 0; 0; 0; 0]; [0; 1; 2; 4; 5; 0; 0; 0];
  [3; 4; 5; 0; 0; 0; 0; 0]; [0; 3; 4; 5; 0; 0; 0; 0]; [1; 3; 4; 5; 0; 0; 0; 0]; [0; 1; 3; 4; 5; 0; 0; 0];
  [2; 3; 4; 5; 0; 0; 0; 0]; [0; 2; 3; 4; 5; 0; 0; 0]; [1; 2; 3; 4; 5; 0; 0; 0]; [0; 1; 2; 3; 4; 5; 0; 0];
  [6; 0; 0; 0; 0; 0; 0; 0]; [0; 6; 0; 0; 0; 0; 0; 0]; [1; 6; 0; 0; 0; 0; 0; 0]; [0; 1; 6; 0; 0; 0; 0; 0];
  [2; 6; 0; 0; 0; 0; 0; 0]; [0; 2; 6; 0; 0; 0; 0; 0]; [1; 2; 6; 0; 0; 0; 0; 0]; [0; 1; 2; 6; 0; 0; 0; 0];
  [3; 6; 0; 0; 0; 0; 0; 0]; [0; 3; 6; 0; 0; 0; 0; 0]; [1; 3; 6; 0; 0; 0; 0; 0]; [0; 1; 3; 6; 0; 0; 0; 0];
  [2; 3; 6; 0; 0; 0; 0; 0]; [0; 2; 3; 6; 0; 0; 0; 0]; [1; 2; 3; 6; 0; 0; 0; 0]; [0; 1; 2; 3; 6; 0; 0; 0];
  [4; 6; 0; 0; 0; 0; 0; 0]; [0; 4; 6; 0; 0; 0; 0; 0]; [1; 4; 6; 0; 0; 0; 0; 0]; [0; 1; 4; 6; 0; 0; 0; 0];
  [2; 4; 6; 0; 0; 0; 0; 0]; [0; 2; 4; 6; 0; 0; 0; 0]; [1; 2; 4; 6; 0; 0; 0; 0]; [0; 1; 2; 4; 6; 0; 0; 0];
  [3; 4; 6; 0; 0; 0; 0; 0]; [0; 3; 4; 6; 0; 0; 0; 0]; [1; 3; 4; 6; 0; 0; 0; 0]; [0; 1; 3; 4; 6; 0; 0; 0];
  [2; 3; 4; 6; 0; 0; 0; 0]; [0; 2; 3; 4; 6; 0; 0; 0]; [1; 2; 3; 4; 6; 0; 0; 0]; [0; 1; 2; 3; 4; 6; 0; 0];
  [5; 6; 0; 0; 0; 0; 0; 0]; [0; 5; 6; 0; 0; 0; 0; 0]; [1; 5; 6; 0; 0; 0; 0; 0]; [0; 1; 5; 6; 0; 0; 0; 0];
  [2; 5; 6; 0; 0; 0; 0; 0]; [0; 2; 5; 6; 0; 0; 0; 0]; [1; 2; 5; 6; 0; 0; 0; 0]; [0; 1; 2; 5; 6; 0; 0; 0];
  [3; 5; 6; 0; 0; 0; 0; 0]; [0; 3; 5; 6; 0; 0; 0; 0]; [1; 3; 5; 6; 0; 0; 0; 0]; [0; 1; 3; 5; 6; 0; 0; 0];
  [2; 3; 5; 6; 0; 0; 0; 0]; [0; 2; 3; 5; 6; 0; 0; 0]; [1; 2; 3; 5; 6; 0; 0; 0]; [0; 1; 2; 3; 5; 6; 0; 0];
  [4; 5; 6; 0; 0; 0; 0; 0]; [0; 4; 5; 6; 0; 0; 0; 0]; [1; 4; 5; 6; 0; 0; 0; 0]; [0; 1; 4; 5; 6; 0; 0; 0];
  [2; 4; 5; 6; 0; 0; 0; 0]; [0; 2; 4; 5; 6; 0; 0; 0]; [1; 2; 4; 5; 6; 0; 0; 0]; [0; 1; 2; 4; 5; 6; 0; 0];
  [3; 4; 5; 6; 0; 0; 0; 0]; [0; 3; 4; 5; 6; 0; 0; 0]; [1; 3; 4; 5; 6; 0; 0; 0]; [0; 1; 3; 4; 5; 6; 0; 0];
  [2; 3; 4; 5; 6; 0; 0; 0]; [0; 2; 3; 4; 5; 6; 0; 0]; [1; 2; 3; 4; 5; 6; 0; 0]; [0; 1; 2; 3; 4; 5; 6; 0];
  [7; 0; 0; 0; 0; 0; 0; 0]; [0; 7; 0; 0; 0; 0; 0; 0]; [1; 7; 0; 0; 0; 0; 0; 0]; [0; 1; 7; 0; 0; 0; 0; 0];
  [2; 7; 0; 0; 0; 0; 0; 0]; [0; 2; 7; 0; 0; 0; 0; 0]; [1; 2; 7; 0; 0; 0; 0; 0]; [0; 1; 2; 7; 0; 0; 0; 0];
  [3; 7; 0; 0; 0; 0; 0; 0]; [0; 3; 7; 0; 0; 0; 0; 0]; [1; 3; 7; 0; 0; 0; 0; 0]; [0; 1; 3; 7; 0; 0; 0; 0];
  [2; 3; 7; 0; 0; 0; 0; 0]; [0; 2; 3; 7; 0; 0; 0; 0]; [1; 2; 3; 7; 0; 0; 0; 0]; [0; 1; 2; 3; 7; 0; 0; 0];
  [4; 7; 0; 0; 0; 0; 0; 0]; [0; 4; 7; 0; 0; 0; 0; 0]; [1; 4; 7; 0; 0; 0; 0; 0]; [0; 1; 4; 7; 0; 0; 0; 0];
  [2; 4; 7; 0; 0; 0; 0; 0]; [0; 2; 4; 7; 0; 0; 0; 0]; [1; 2; 4; 7; 0; 0; 0; 0]; [0; 1; 2; 4; 7; 0; 0; 0];
  [3; 4; 7; 0; 0; 0; 0; 0]; [0; 3; 4; 7; 0; 0; 0; 0]; [1; 3; 4; 7; 0; 0; 0; 0]; [0; 1; 3; 4; 7; 0; 0; 0];
  [2; 3; 4; 7; 0; 0; 0; 0]; [0; 2; 3; 4; 7; 0; 0; 0]; [1; 2; 3; 4; 7; 0; 0; 0]; [0; 1; 2; 3; 4; 7; 0; 0];
  [5; 7; 0; 0; 0; 0; 0; 0]; [0; 5; 7; 0; 0; 0; 0; 0]; [1; 5; 7; 0; 0; 0; 0; 0]; [0; 1; 5; 7; 0; 0; 0; 0];
  [2; 5; 7; 0; 0; 0; 0; 0]; [0; 2; 5; 7; 0; 0; 0; 0]; [1; 2; 5; 7; 0; 0; 0; 0]; [0; 1; 2; 5; 7; 0; 0; 0];
  [3; 5; 7; 0; 0; 0; 0; 0]; [0; 3; 5; 7; 0; 0; 0; 0]; [1; 3; 5; 7; 0; 0; 0; 0]; [0; 1; 3; 5; 7; 0; 0; 0];
  [2; 3; 5; 7; 0; 0; 0; 0]; [0; 2; 3; 5; 7; 0; 0; 0]; [1; 2; 3; 5; 7; 0; 0; 0]; [0; 1; 2; 3; 5; 7; 0; 0];
  [4; 5; 7; 0; 0; 0; 0; 0]; [0; 4; 5; 7; 0; 0; 0; 0]; [1; 4; 5; 7; 0; 0; 0; 0]; [0; 1; 4; 5; 7; 0; 0; 0];
  [2; 4; 5; 7; 0; 0; 0; 0]; [0; 2; 4; 5; 7; 0; 0; 0]; [1; 2; 4; 5; 7; 0; 0; 0]; [0; 1; 2; 4; 5; 7; 0; 0];
  [3; 4; 5; 7; 0; 0; 0; 0]; [0; 3; 4; 5; 7; 0; 0; 0]; [1; 3; 4; 5; 7; 0; 0; 0]; [0; 1; 3; 4; 5; 7; 0; 0];
  [2; 3; 4; 5; 7; 0; 0; 0]; [0; 2; 3; 4; 5; 7; 0; 0]; [1; 2; 3; 4; 5; 7; 0; 0]; [0; 1; 2; 3; 4; 5; 7; 0];
  [6; 7; 0; 0; 0; 0; 0; 0]; [0; 6; 7; 0; 0; 0; 0; 0]; [1; 6; 7; 0; 0; 0; 0; 0]; [0; 1; 6; 7; 0; 0; 0; 0];
  [2; 6; 7; 0; 0; 0; 0; 0]; [0; 2; 6; 7; 0; 0; 0; 0]; [1; 2; 6; 7; 0; 0; 0; 0]; [0; 1; 2; 6; 7; 0; 0; 0];
  [3; 6; 7; 0; 0; 0; 0; 0]; [0; 3; 6; 7; 0; 0; 0; 0]; [1; 3; 6; 7; 0; 0; 0; 0]; [0; 1; 3; 6; 7; 0; 0; 0];
  [2; 3; 6; 7; 0; 0; 0; 0]; [0; 2; 3; 6; 7; 0; 0; 0]; [1; 2; 3; 6; 7; 0; 0; 0]; [0; 1; 2; 3; 6; 7; 0; 0];
  [4; 6; 7; 0; 0; 0; 0; 0]; [0; 4; 6; 7; 0; 0; 0; 0]; [1; 4; 6; 7; 0; 0; 0; 0]; [0; 1; 4; 6; 7; 0; 0; 0];
  [2; 4; 6; 7; 0; 0; 0; 0]; [0; 2; 4; 6; 7; 0; 0; 0]; [1; 2; 4; 6; 7; 0; 0; 0]; [0; 1; 2; 4; 6; 7; 0; 0];
  [3; 4; 6; 7; 0; 0; 0; 0]; [0; 3; 4; 6; 7; 0; 0; 0]; [1; 3; 4; 6; 7; 0; 0; 0]; [0; 1; 3; 4; 6; 7; 0; 0];
  [2; 3; 4; 6; 7; 0; 0; 0]; [0; 2; 3; 4; 6; 7; 0; 0]; [1; 2; 3; 4; 6; 7; 0; 0]; [0; 1; 2; 3; 4; 6; 7; 0];
  [5; 6; 7; 0; 0; 0; 0; 0]; [0; 5; 6; 7; 0; 0; 0; 0]; [1; 5; 6; 7; 0; 0; 0; 0]; [0; 1; 5; 6; 7; 0; 0; 0];
  [2; 5; 6; 7; 0; 0; 0; 0]; [0; 2; 5; 6; 7; 0; 0; 0]; [1; 2; 5; 6; 7; 0; 0; 0]; [0; 1; 2; 5; 6; 7; 0; 0];
  [3; 5; 6; 7; 0; 0; 0; 0]; [0; 3; 5; 6; 7; 0; 0; 0]; [1; 3; 5; 6; 7; 0; 0; 0]; [0; 1; 3; 5; 6; 7; 0; 0];
  [2; 3; 5; 6; 7; 0; 0; 0]; [0; 2; 3; 5; 6; 7; 0; 0]; [1; 2; 3; 5; 6; 7; 0; 0]; [0; 1; 2; 3; 5; 6; 7; 0];
  [4; 5; 6; 7; 0; 0; 0; 0]; [0; 4; 5; 6; 7; 0; 0; 0]; [1; 4; 5; 6; 7; 0; 0; 0]; [0; 1; 4; 5; 6; 7; 0; 0];
  [2; 4; 5; 6; 7; 0; 0; 0]; [0; 2; 4; 5; 6; 7; 0; 0]; [1; 2; 4; 5; 6; 7; 0; 0]; [0; 1; 2; 4; 5; 6; 7; 0];
  [3; 4; 5; 6; 7; 0; 0; 0]; [0; 3; 4; 5; 6; 7; 0; 0]; [1; 3; 4; 5; 6; 7; 0; 0]; [0; 1; 3; 4; 5; 6; 7; 0];
  [2; 3; 4; 5; 6; 7; 0; 0]; [0; 2; 3; 4; 5; 6; 7; 0]; [1; 2; 3; 4; 5; 6; 7; 0]; [0; 1; 2; 3; 4; 5; 6; 7]].

(** ** poly.c 949-970: [polyz_unpack], reading from [a + off]. *)
Definition z_shufb : list Z :=
  rev [-1; 9; 8; 7; -1; 7; 6; 5; -1; 5; 4; 3; -1; 3; 2; 1; -1; 8; 7; 6; -1; 6; 5; 4; -1; 4; 3; 2; -1; 2; 1; 0].
Definition z_srlv : list Z := rev [6; 4; 2; 0; 6; 4; 2; 0].
Definition z_block (f : bytes) : list Z :=
  let f := permute4x64 f 148 in
  let f := shuffle_epi8 f z_shufb in
  let f := srlv_epi32 (lanes32 f) z_srlv in
  let f := map (fun x => and_si256 x 262143) f in
  map (fun x => sub_epi32 GAMMA1 x) f.
Definition polyz_unpack_avx (a : bytes) (off : nat) : crun poly :=
  do l <- mapM (fun i => do f <- loadu a (off + 18 * i) ;; CRet (z_block f)) (seq 0 32) ;; CRet (concat l).

(** ** poly.c 982-1010: [polyw1_pack], writing to [r + off]: 32 bytes every 24. *)
Definition w1_shufd1 : list Z := rev [7; 3; 6; 2; 5; 1; 4; 0].
Definition w1_shufd2 : list Z := rev [-1; -1; 6; 5; 4; 2; 1; 0].
Definition w1_shufb : list Z :=
  rev [-1; -1; -1; -1; 14; 13; 12; 10; 9; 8; 6; 5; 4; 2; 1; 0; -1; -1; -1; -1; 14; 13; 12; 10; 9; 8; 6; 5; 4; 2; 1; 0].
Definition w1_block (f0 f1 f2 f3 : list Z) : bytes :=
  let f0 := packus_epi32 f0 f1 in
  let f1 := packus_epi32 f2 f3 in
  let f0 := packus_epi16 f0 f1 in
  let f0 := maddubs_epi16 f0 1 64 in
  let f0 := madd_epi16 f0 1 4096 in
  let f0 := permutevar8x32 f0 w1_shufd1 in
  let f0 := lanes32 (shuffle_epi8 (bytes32 f0) w1_shufb) in
  let f0 := permutevar8x32 f0 w1_shufd2 in
  bytes32 f0.
Definition vec_of (a : poly) (i : nat) : list Z := firstn 8 (skipn (8 * i) a).
Definition polyw1_pack_avx (r : bytes) (off : nat) (a : poly) : crun bytes :=
  foldM (fun r i => patch r (off + 24 * i) (w1_block (vec_of a (4 * i)) (vec_of a (4 * i + 1)) (vec_of a (4 * i + 2)) (vec_of a (4 * i + 3))))
    (seq 0 8) r.

(** ** rejsample.c 266-311: [rej_uniform_avx]; [r] is the output array, the result is it and the
    number of coefficients. *)
Definition rej_idx8 : list Z :=
  rev [-1; 15; 14; 13; -1; 12; 11; 10; -1; 9; 8; 7; -1; 6; 5; 4; -1; 11; 10; 9; -1; 8; 7; 6; -1; 5; 4; 3; -1; 2; 1; 0].
(** rejsample.c 279-292: the candidates of one turn and the vector that is stored. *)
Definition rej_cand (d : bytes) : list Z :=
  let d := permute4x64 d 148 in
  let d := shuffle_epi8 d rej_idx8 in
  map (fun x => and_si256 x 8388607) (lanes32 d).
Definition rej_good (d : list Z) : nat := movemask (map (fun x => sub_epi32 x Q) d).
Definition rej_sel (d : list Z) : list Z := permutevar8x32 d (nth (rej_good d) idxlut []).
(** rejsample.c 278-297: the vector loop, run at most [fuel] times. *)
Fixpoint rej_vec (fuel : nat) (buf : bytes) (r : list Z) (ctr pos : nat) : crun (list Z * nat * nat) :=
  if (pos <=? 816)%nat then
    match fuel with
    | O => CFuel
    | S f =>
        do b <- loadu buf pos ;;
        let d := rej_cand b in
        do r' <- patch r ctr (rej_sel d) ;;
        let ctr' := (ctr + popcnt (rej_good d))%nat in
        if (248 <? ctr')%nat then CRet (r', ctr', (pos + 24)%nat) else rej_vec f buf r' ctr' (pos + 24)
    end
  else CRet (r, ctr, pos).
(** rejsample.c 299-310: the scalar loop. *)
Fixpoint rej_tail (fuel : nat) (buf : bytes) (r : list Z) (ctr pos : nat) : crun (list Z * nat) :=
  if (ctr <? 256)%nat && (pos <=? 837)%nat then
    match fuel with
    | O => CFuel
    | S f =>
        if (pos + 2 <? length buf)%nat then
          let t := Z.land (Z.lor (Z.lor (at_ buf pos) (Z.shiftl (at_ buf (pos + 1)) 8)) (Z.shiftl (at_ buf (pos + 2)) 16)) 8388607 in
          if t <? Q then do r' <- patch r ctr [t] ;; rej_tail f buf r' (S ctr) (pos + 3)
          else rej_tail f buf r ctr (pos + 3)
        else CUB
    end
  else CRet (r, ctr).
Definition rej_uniform_avx (r : list Z) (buf : bytes) : crun (list Z * nat) :=
  do (r, ctr, pos) <- rej_vec 35 buf r 0 0 ;; rej_tail 280 buf r ctr pos.

(** ** rounding.c 99-124: [make_hint_avx]; [hint] is the output array, the result is it and the
    number of hints. *)
Definition hint_step (a0 a1 : poly) (st : bytes * nat) (i : nat) : crun (bytes * nat) :=
  let '(hint, n) := st in
  let bad := movemask (map2 hint_lane (vec_of a0 i) (vec_of a1 i)) in
  let idx := le (nth bad idxlut []) in
  let idx := (idx + 578721382704613384 * Z.of_nat i) mod 18446744073709551616 in
  do hint' <- patch hint n (le_bytes 8 idx) ;;
  CRet (hint', (n + popcnt bad)%nat).
Definition make_hint_avx (hint : bytes) (a0 a1 : poly) : crun (bytes * nat) :=
  foldM (hint_step a0 a1) (seq 0 32) (hint, 0%nat).
