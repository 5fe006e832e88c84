(** * KeccakX4: four Keccak permutations at a time,
    pqclean/crypto_sign/dilithium2/avx2/f1600x4.S and fips202x4.c.

    A [__m256i] is a list of four [uint64_t] lanes (Z in [0, 2^64)), lane 0 first, as the little-endian
    machine stores them.  The instruction lists are the text of f1600x4.S, written out by a script; AT&T
    operand order is kept (the destination comes last).  A step outside the 25 vectors of the state, off a 32-byte
    boundary ([vmovdqa] faults there), or outside the table of round constants has no result.
    Simplification: an unaligned memory operand of [vpxor] also faults here although it would not on
    the machine. *)
From Coq Require Import ZArith List Lia Bool.
From Verif Require Import Base DilArith DilNtt Keccak.
Import ListNotations.
Open Scope Z_scope.

Definition vec : Type := list Z.
Definition zero4 : vec := [0; 0; 0; 0].
(** Second source operand: a register, a displacement from %rdi, the tables rho8 and rho56. *)
Inductive opnd := R (n : nat) | M (off : nat) | T8 | T56.
Inductive ins :=
| Ld (o : opnd) (d : nat)            (* vmovdqa o, d *)
| St (s off : nat)                   (* vmovdqa s, off(%rdi) *)
| Xor (o : opnd) (s d : nat)         (* vpxor o, s, d *)
| Or (o : opnd) (s d : nat)          (* vpor o, s, d *)
| Andn (o : opnd) (s d : nat)        (* vpandn o, s, d *)
| Shufb (o : opnd) (s d : nat)       (* vpshufb o, s, d *)
| Sll (k s d : nat)                  (* vpsllq $k, s, d *)
| Srl (k s d : nat)                  (* vpsrlq $k, s, d *)
| Bcast (off d : nat).               (* vpbroadcastq off(%rsi), d *)

(** f1600x4.S 9-12: the bytes of the two tables, as lanes. *)
Definition rho8 : vec := map load64
  [[7; 0; 1; 2; 3; 4; 5; 6]; [15; 8; 9; 10; 11; 12; 13; 14]; [7; 0; 1; 2; 3; 4; 5; 6]; [15; 8; 9; 10; 11; 12; 13; 14]].
Definition rho56 : vec := map load64
  [[1; 2; 3; 4; 5; 6; 7; 0]; [9; 10; 11; 12; 13; 14; 15; 8]; [1; 2; 3; 4; 5; 6; 7; 0]; [9; 10; 11; 12; 13; 14; 15; 8]].

(** [vpshufb]: within each 16 bytes; an index with its top bit set gives 0. *)
Definition pshufb (v mask : vec) : vec :=
  let b := flat_map store64 v in
  let m := flat_map store64 mask in
  let r := map (fun j => let i := nth j m 0 in
                         if 128 <=? i then 0 else nth (j / 16 * 16 + Z.to_nat (i mod 16))%nat b 0) (seq 0 32) in
  map (fun k => load64 (firstn 8 (skipn (8 * k) r))) (seq 0 4).

(** v into place i of a list. *)
Fixpoint put {A} (l : list A) (i : nat) (v : A) : list A :=
  match l, i with [], _ => [] | _ :: t, O => v :: t | h :: t, S i' => h :: put t i' v end.
(** The registers %ymm0 .. %ymm15 and the 25 vectors at %rdi. *)
Record mach := Mach { yregs : list vec; ymem : list vec }.
Definition reg (s : mach) (n : nat) : vec := nth n (yregs s) zero4.
Definition setr (s : mach) (n : nat) (v : vec) : mach := Mach (put (yregs s) n v) (ymem s).
Definition addr (off : nat) : crun nat :=
  if ((off mod 32 =? 0) && (off / 32 <? 25))%nat%bool then CRet (off / 32)%nat else CUB.
Definition fetch (s : mach) (o : opnd) : crun vec :=
  match o with
  | R n => CRet (reg s n)
  | M off => do i <- addr off ;; CRet (nth i (ymem s) zero4)
  | T8 => CRet rho8
  | T56 => CRet rho56
  end.
Definition bin (s : mach) (f : vec -> vec -> vec) (o : opnd) (a d : nat) : crun mach :=
  do v <- fetch s o ;; CRet (setr s d (f (reg s a) v)).
(** One instruction; [rc] is the memory at %rsi as 64-bit words. *)
Definition step (rc : list Z) (s : mach) (i : ins) : crun mach :=
  match i with
  | Ld o d => do v <- fetch s o ;; CRet (setr s d v)
  | St a off => do i <- addr off ;; CRet (Mach (yregs s) (put (ymem s) i (reg s a)))
  | Xor o a d => bin s (map2 Z.lxor) o a d
  | Or o a d => bin s (map2 Z.lor) o a d
  | Andn o a d => bin s (map2 (fun x y => Z.land (not64 x) y)) o a d
  | Shufb o a d => bin s pshufb o a d
  | Sll k a d => CRet (setr s d (map (fun x => u64 (Z.shiftl x (Z.of_nat k))) (reg s a)))
  | Srl k a d => CRet (setr s d (map (fun x => Z.shiftr x (Z.of_nat k)) (reg s a)))
  | Bcast off d => if ((off mod 8 =? 0) && (off / 8 <? length rc))%nat%bool
                   then CRet (setr s d (repeat (nth (off / 8) rc 0) 4)) else CUB
  end.
Fixpoint steps (rc : list Z) (l : list ins) (s : mach) : crun mach :=
  match l with [] => CRet s | i :: l' => do s' <- step rc s i ;; steps rc l' s' end.

(** f1600x4.S 22-242. *)
Definition round0 : list ins := [
  Ld (M 0) 8; Ld (M 32) 9; Ld (M 64) 10; Ld (M 96) 11; Ld (M 128) 12; Xor (M 160) 8 8; Xor (M 192) 9 9; Xor (M 224) 10 10;
  Xor (M 256) 11 11; Xor (M 288) 12 12; Xor (M 320) 8 8; Xor (M 352) 9 9; Xor (M 384) 10 10; Xor (M 416) 11 11;
  Xor (M 448) 12 12; Xor (M 480) 8 8; Xor (M 512) 9 9; Xor (M 544) 10 10; Xor (M 576) 11 11; Xor (M 608) 12 12;
  Xor (M 640) 8 8; Xor (M 672) 9 9; Xor (M 704) 10 10; Xor (M 736) 11 11; Xor (M 768) 12 12; Sll 1 9 13;
  Sll 1 10 14; Sll 1 11 15; Sll 1 12 7; Sll 1 8 6; Srl 63 9 5; Srl 63 10 4; Srl 63 11 3; Srl 63 12 2; Srl 63 8 1;
  Or (R 13) 5 5; Or (R 14) 4 4; Or (R 15) 3 3; Or (R 7) 2 2; Or (R 6) 1 1; Xor (R 5) 12 5; Xor (R 4) 8 4;
  Xor (R 3) 9 3; Xor (R 2) 10 2; Xor (R 1) 11 1; Xor (M 0) 5 8; Xor (M 192) 4 9; Xor (M 384) 3 10; Xor (M 576) 2 11;
  Xor (M 768) 1 12; Sll 44 9 14; Sll 43 10 15; Sll 21 11 7; Sll 14 12 6; Srl 20 9 9; Srl 21 10 10; Srl 43 11 11;
  Srl 50 12 12; Or (R 14) 9 9; Or (R 15) 10 10; Or (R 7) 11 11; Or (R 6) 12 12; Andn (R 10) 9 13; Andn (R 11) 10 14;
  Andn (R 12) 11 15; Andn (R 8) 12 7; Andn (R 9) 8 6; Xor (R 8) 13 13; Xor (R 9) 14 14; Xor (R 10) 15 15;
  Xor (R 11) 7 7; Xor (R 12) 6 6; Bcast 0 8; Xor (R 8) 13 13; St 13 0; St 14 192; St 15 384; St 7 576; St 6 768;
  Xor (M 96) 2 8; Xor (M 288) 1 9; Xor (M 320) 5 10; Xor (M 512) 4 11; Xor (M 704) 3 12; Sll 28 8 13; Sll 20 9 14;
  Sll 3 10 15; Sll 45 11 7; Sll 61 12 6; Srl 36 8 8; Srl 44 9 9; Srl 61 10 10; Srl 19 11 11; Srl 3 12 12;
  Or (R 13) 8 8; Or (R 14) 9 9; Or (R 15) 10 10; Or (R 7) 11 11; Or (R 6) 12 12; Andn (R 10) 9 13; Andn (R 11) 10 14;
  Andn (R 12) 11 15; Andn (R 8) 12 7; Andn (R 9) 8 6; Xor (R 8) 13 13; Xor (R 9) 14 14; Xor (R 10) 15 15;
  Xor (R 11) 7 7; Xor (R 12) 6 6; St 13 320; St 14 512; St 15 704; St 7 96; St 6 288; Xor (M 32) 4 8; Xor (M 224) 3 9;
  Xor (M 416) 2 10; Xor (M 608) 1 11; Xor (M 640) 5 12; Sll 1 8 13; Sll 6 9 14; Sll 25 10 15; Sll 18 12 6;
  Srl 63 8 8; Srl 58 9 9; Srl 39 10 10; Srl 46 12 12; Or (R 13) 8 8; Or (R 14) 9 9; Or (R 15) 10 10; Shufb (R 0) 11 11;
  Or (R 6) 12 12; Andn (R 10) 9 13; Andn (R 11) 10 14; Andn (R 12) 11 15; Andn (R 8) 12 7; Andn (R 9) 8 6;
  Xor (R 8) 13 13; Xor (R 9) 14 14; Xor (R 10) 15 15; Xor (R 11) 7 7; Xor (R 12) 6 6; St 13 640; St 14 32;
  St 15 224; St 7 416; St 6 608; Xor (M 128) 1 8; Xor (M 160) 5 9; Xor (M 352) 4 10; Xor (M 544) 3 11; Xor (M 736) 2 12;
  Sll 27 8 13; Sll 36 9 14; Sll 10 10 15; Sll 15 11 7; Srl 37 8 8; Srl 28 9 9; Srl 54 10 10; Srl 49 11 11;
  Or (R 13) 8 8; Or (R 14) 9 9; Or (R 15) 10 10; Or (R 7) 11 11; Shufb (T56) 12 12; Andn (R 10) 9 13; Andn (R 11) 10 14;
  Andn (R 12) 11 15; Andn (R 8) 12 7; Andn (R 9) 8 6; Xor (R 8) 13 13; Xor (R 9) 14 14; Xor (R 10) 15 15;
  Xor (R 11) 7 7; Xor (R 12) 6 6; St 13 160; St 14 352; St 15 544; St 7 736; St 6 128; Xor (M 64) 3 8; Xor (M 256) 2 9;
  Xor (M 448) 1 10; Xor (M 480) 5 11; Xor (M 672) 4 12; Sll 62 8 13; Sll 55 9 14; Sll 39 10 15; Sll 41 11 7;
  Sll 2 12 6; Srl 2 8 8; Srl 9 9 9; Srl 25 10 10; Srl 23 11 11; Srl 62 12 12; Or (R 13) 8 8; Or (R 14) 9 9;
  Or (R 15) 10 10; Or (R 7) 11 11; Or (R 6) 12 12; Andn (R 10) 9 13; Andn (R 11) 10 14; Andn (R 12) 11 15;
  Andn (R 8) 12 7; Andn (R 9) 8 6; Xor (R 8) 13 13; Xor (R 9) 14 14; Xor (R 10) 15 15; Xor (R 11) 7 7; Xor (R 12) 6 6;
  St 13 480; St 14 672; St 15 64; St 7 256; St 6 448].
(** f1600x4.S 243-463. *)
Definition round1 : list ins := [
  Ld (M 0) 8; Ld (M 32) 9; Ld (M 64) 10; Ld (M 96) 11; Ld (M 128) 12; Xor (M 160) 8 8; Xor (M 192) 9 9; Xor (M 224) 10 10;
  Xor (M 256) 11 11; Xor (M 288) 12 12; Xor (M 320) 8 8; Xor (M 352) 9 9; Xor (M 384) 10 10; Xor (M 416) 11 11;
  Xor (M 448) 12 12; Xor (M 480) 8 8; Xor (M 512) 9 9; Xor (M 544) 10 10; Xor (M 576) 11 11; Xor (M 608) 12 12;
  Xor (M 640) 8 8; Xor (M 672) 9 9; Xor (M 704) 10 10; Xor (M 736) 11 11; Xor (M 768) 12 12; Sll 1 9 13;
  Sll 1 10 14; Sll 1 11 15; Sll 1 12 7; Sll 1 8 6; Srl 63 9 5; Srl 63 10 4; Srl 63 11 3; Srl 63 12 2; Srl 63 8 1;
  Or (R 13) 5 5; Or (R 14) 4 4; Or (R 15) 3 3; Or (R 7) 2 2; Or (R 6) 1 1; Xor (R 5) 12 5; Xor (R 4) 8 4;
  Xor (R 3) 9 3; Xor (R 2) 10 2; Xor (R 1) 11 1; Xor (M 0) 5 8; Xor (M 512) 4 9; Xor (M 224) 3 10; Xor (M 736) 2 11;
  Xor (M 448) 1 12; Sll 44 9 14; Sll 43 10 15; Sll 21 11 7; Sll 14 12 6; Srl 20 9 9; Srl 21 10 10; Srl 43 11 11;
  Srl 50 12 12; Or (R 14) 9 9; Or (R 15) 10 10; Or (R 7) 11 11; Or (R 6) 12 12; Andn (R 10) 9 13; Andn (R 11) 10 14;
  Andn (R 12) 11 15; Andn (R 8) 12 7; Andn (R 9) 8 6; Xor (R 8) 13 13; Xor (R 9) 14 14; Xor (R 10) 15 15;
  Xor (R 11) 7 7; Xor (R 12) 6 6; Bcast 8 8; Xor (R 8) 13 13; St 13 0; St 14 512; St 15 224; St 7 736; St 6 448;
  Xor (M 576) 2 8; Xor (M 288) 1 9; Xor (M 640) 5 10; Xor (M 352) 4 11; Xor (M 64) 3 12; Sll 28 8 13; Sll 20 9 14;
  Sll 3 10 15; Sll 45 11 7; Sll 61 12 6; Srl 36 8 8; Srl 44 9 9; Srl 61 10 10; Srl 19 11 11; Srl 3 12 12;
  Or (R 13) 8 8; Or (R 14) 9 9; Or (R 15) 10 10; Or (R 7) 11 11; Or (R 6) 12 12; Andn (R 10) 9 13; Andn (R 11) 10 14;
  Andn (R 12) 11 15; Andn (R 8) 12 7; Andn (R 9) 8 6; Xor (R 8) 13 13; Xor (R 9) 14 14; Xor (R 10) 15 15;
  Xor (R 11) 7 7; Xor (R 12) 6 6; St 13 640; St 14 352; St 15 64; St 7 576; St 6 288; Xor (M 192) 4 8; Xor (M 704) 3 9;
  Xor (M 416) 2 10; Xor (M 128) 1 11; Xor (M 480) 5 12; Sll 1 8 13; Sll 6 9 14; Sll 25 10 15; Sll 18 12 6;
  Srl 63 8 8; Srl 58 9 9; Srl 39 10 10; Srl 46 12 12; Or (R 13) 8 8; Or (R 14) 9 9; Or (R 15) 10 10; Shufb (R 0) 11 11;
  Or (R 6) 12 12; Andn (R 10) 9 13; Andn (R 11) 10 14; Andn (R 12) 11 15; Andn (R 8) 12 7; Andn (R 9) 8 6;
  Xor (R 8) 13 13; Xor (R 9) 14 14; Xor (R 10) 15 15; Xor (R 11) 7 7; Xor (R 12) 6 6; St 13 480; St 14 192;
  St 15 704; St 7 416; St 6 128; Xor (M 768) 1 8; Xor (M 320) 5 9; Xor (M 32) 4 10; Xor (M 544) 3 11; Xor (M 256) 2 12;
  Sll 27 8 13; Sll 36 9 14; Sll 10 10 15; Sll 15 11 7; Srl 37 8 8; Srl 28 9 9; Srl 54 10 10; Srl 49 11 11;
  Or (R 13) 8 8; Or (R 14) 9 9; Or (R 15) 10 10; Or (R 7) 11 11; Shufb (T56) 12 12; Andn (R 10) 9 13; Andn (R 11) 10 14;
  Andn (R 12) 11 15; Andn (R 8) 12 7; Andn (R 9) 8 6; Xor (R 8) 13 13; Xor (R 9) 14 14; Xor (R 10) 15 15;
  Xor (R 11) 7 7; Xor (R 12) 6 6; St 13 320; St 14 32; St 15 544; St 7 256; St 6 768; Xor (M 384) 3 8; Xor (M 96) 2 9;
  Xor (M 608) 1 10; Xor (M 160) 5 11; Xor (M 672) 4 12; Sll 62 8 13; Sll 55 9 14; Sll 39 10 15; Sll 41 11 7;
  Sll 2 12 6; Srl 2 8 8; Srl 9 9 9; Srl 25 10 10; Srl 23 11 11; Srl 62 12 12; Or (R 13) 8 8; Or (R 14) 9 9;
  Or (R 15) 10 10; Or (R 7) 11 11; Or (R 6) 12 12; Andn (R 10) 9 13; Andn (R 11) 10 14; Andn (R 12) 11 15;
  Andn (R 8) 12 7; Andn (R 9) 8 6; Xor (R 8) 13 13; Xor (R 9) 14 14; Xor (R 10) 15 15; Xor (R 11) 7 7; Xor (R 12) 6 6;
  St 13 160; St 14 672; St 15 384; St 7 96; St 6 608].
(** f1600x4.S 464-684. *)
Definition round2 : list ins := [
  Ld (M 0) 8; Ld (M 32) 9; Ld (M 64) 10; Ld (M 96) 11; Ld (M 128) 12; Xor (M 160) 8 8; Xor (M 192) 9 9; Xor (M 224) 10 10;
  Xor (M 256) 11 11; Xor (M 288) 12 12; Xor (M 320) 8 8; Xor (M 352) 9 9; Xor (M 384) 10 10; Xor (M 416) 11 11;
  Xor (M 448) 12 12; Xor (M 480) 8 8; Xor (M 512) 9 9; Xor (M 544) 10 10; Xor (M 576) 11 11; Xor (M 608) 12 12;
  Xor (M 640) 8 8; Xor (M 672) 9 9; Xor (M 704) 10 10; Xor (M 736) 11 11; Xor (M 768) 12 12; Sll 1 9 13;
  Sll 1 10 14; Sll 1 11 15; Sll 1 12 7; Sll 1 8 6; Srl 63 9 5; Srl 63 10 4; Srl 63 11 3; Srl 63 12 2; Srl 63 8 1;
  Or (R 13) 5 5; Or (R 14) 4 4; Or (R 15) 3 3; Or (R 7) 2 2; Or (R 6) 1 1; Xor (R 5) 12 5; Xor (R 4) 8 4;
  Xor (R 3) 9 3; Xor (R 2) 10 2; Xor (R 1) 11 1; Xor (M 0) 5 8; Xor (M 352) 4 9; Xor (M 704) 3 10; Xor (M 256) 2 11;
  Xor (M 608) 1 12; Sll 44 9 14; Sll 43 10 15; Sll 21 11 7; Sll 14 12 6; Srl 20 9 9; Srl 21 10 10; Srl 43 11 11;
  Srl 50 12 12; Or (R 14) 9 9; Or (R 15) 10 10; Or (R 7) 11 11; Or (R 6) 12 12; Andn (R 10) 9 13; Andn (R 11) 10 14;
  Andn (R 12) 11 15; Andn (R 8) 12 7; Andn (R 9) 8 6; Xor (R 8) 13 13; Xor (R 9) 14 14; Xor (R 10) 15 15;
  Xor (R 11) 7 7; Xor (R 12) 6 6; Bcast 16 8; Xor (R 8) 13 13; St 13 0; St 14 352; St 15 704; St 7 256; St 6 608;
  Xor (M 736) 2 8; Xor (M 288) 1 9; Xor (M 480) 5 10; Xor (M 32) 4 11; Xor (M 384) 3 12; Sll 28 8 13; Sll 20 9 14;
  Sll 3 10 15; Sll 45 11 7; Sll 61 12 6; Srl 36 8 8; Srl 44 9 9; Srl 61 10 10; Srl 19 11 11; Srl 3 12 12;
  Or (R 13) 8 8; Or (R 14) 9 9; Or (R 15) 10 10; Or (R 7) 11 11; Or (R 6) 12 12; Andn (R 10) 9 13; Andn (R 11) 10 14;
  Andn (R 12) 11 15; Andn (R 8) 12 7; Andn (R 9) 8 6; Xor (R 8) 13 13; Xor (R 9) 14 14; Xor (R 10) 15 15;
  Xor (R 11) 7 7; Xor (R 12) 6 6; St 13 480; St 14 32; St 15 384; St 7 736; St 6 288; Xor (M 512) 4 8; Xor (M 64) 3 9;
  Xor (M 416) 2 10; Xor (M 768) 1 11; Xor (M 160) 5 12; Sll 1 8 13; Sll 6 9 14; Sll 25 10 15; Sll 18 12 6;
  Srl 63 8 8; Srl 58 9 9; Srl 39 10 10; Srl 46 12 12; Or (R 13) 8 8; Or (R 14) 9 9; Or (R 15) 10 10; Shufb (R 0) 11 11;
  Or (R 6) 12 12; Andn (R 10) 9 13; Andn (R 11) 10 14; Andn (R 12) 11 15; Andn (R 8) 12 7; Andn (R 9) 8 6;
  Xor (R 8) 13 13; Xor (R 9) 14 14; Xor (R 10) 15 15; Xor (R 11) 7 7; Xor (R 12) 6 6; St 13 160; St 14 512;
  St 15 64; St 7 416; St 6 768; Xor (M 448) 1 8; Xor (M 640) 5 9; Xor (M 192) 4 10; Xor (M 544) 3 11; Xor (M 96) 2 12;
  Sll 27 8 13; Sll 36 9 14; Sll 10 10 15; Sll 15 11 7; Srl 37 8 8; Srl 28 9 9; Srl 54 10 10; Srl 49 11 11;
  Or (R 13) 8 8; Or (R 14) 9 9; Or (R 15) 10 10; Or (R 7) 11 11; Shufb (T56) 12 12; Andn (R 10) 9 13; Andn (R 11) 10 14;
  Andn (R 12) 11 15; Andn (R 8) 12 7; Andn (R 9) 8 6; Xor (R 8) 13 13; Xor (R 9) 14 14; Xor (R 10) 15 15;
  Xor (R 11) 7 7; Xor (R 12) 6 6; St 13 640; St 14 192; St 15 544; St 7 96; St 6 448; Xor (M 224) 3 8; Xor (M 576) 2 9;
  Xor (M 128) 1 10; Xor (M 320) 5 11; Xor (M 672) 4 12; Sll 62 8 13; Sll 55 9 14; Sll 39 10 15; Sll 41 11 7;
  Sll 2 12 6; Srl 2 8 8; Srl 9 9 9; Srl 25 10 10; Srl 23 11 11; Srl 62 12 12; Or (R 13) 8 8; Or (R 14) 9 9;
  Or (R 15) 10 10; Or (R 7) 11 11; Or (R 6) 12 12; Andn (R 10) 9 13; Andn (R 11) 10 14; Andn (R 12) 11 15;
  Andn (R 8) 12 7; Andn (R 9) 8 6; Xor (R 8) 13 13; Xor (R 9) 14 14; Xor (R 10) 15 15; Xor (R 11) 7 7; Xor (R 12) 6 6;
  St 13 320; St 14 672; St 15 224; St 7 576; St 6 128].
(** f1600x4.S 685-905. *)
Definition round3 : list ins := [
  Ld (M 0) 8; Ld (M 32) 9; Ld (M 64) 10; Ld (M 96) 11; Ld (M 128) 12; Xor (M 160) 8 8; Xor (M 192) 9 9; Xor (M 224) 10 10;
  Xor (M 256) 11 11; Xor (M 288) 12 12; Xor (M 320) 8 8; Xor (M 352) 9 9; Xor (M 384) 10 10; Xor (M 416) 11 11;
  Xor (M 448) 12 12; Xor (M 480) 8 8; Xor (M 512) 9 9; Xor (M 544) 10 10; Xor (M 576) 11 11; Xor (M 608) 12 12;
  Xor (M 640) 8 8; Xor (M 672) 9 9; Xor (M 704) 10 10; Xor (M 736) 11 11; Xor (M 768) 12 12; Sll 1 9 13;
  Sll 1 10 14; Sll 1 11 15; Sll 1 12 7; Sll 1 8 6; Srl 63 9 5; Srl 63 10 4; Srl 63 11 3; Srl 63 12 2; Srl 63 8 1;
  Or (R 13) 5 5; Or (R 14) 4 4; Or (R 15) 3 3; Or (R 7) 2 2; Or (R 6) 1 1; Xor (R 5) 12 5; Xor (R 4) 8 4;
  Xor (R 3) 9 3; Xor (R 2) 10 2; Xor (R 1) 11 1; Xor (M 0) 5 8; Xor (M 32) 4 9; Xor (M 64) 3 10; Xor (M 96) 2 11;
  Xor (M 128) 1 12; Sll 44 9 14; Sll 43 10 15; Sll 21 11 7; Sll 14 12 6; Srl 20 9 9; Srl 21 10 10; Srl 43 11 11;
  Srl 50 12 12; Or (R 14) 9 9; Or (R 15) 10 10; Or (R 7) 11 11; Or (R 6) 12 12; Andn (R 10) 9 13; Andn (R 11) 10 14;
  Andn (R 12) 11 15; Andn (R 8) 12 7; Andn (R 9) 8 6; Xor (R 8) 13 13; Xor (R 9) 14 14; Xor (R 10) 15 15;
  Xor (R 11) 7 7; Xor (R 12) 6 6; Bcast 24 8; Xor (R 8) 13 13; St 13 0; St 14 32; St 15 64; St 7 96; St 6 128;
  Xor (M 256) 2 8; Xor (M 288) 1 9; Xor (M 160) 5 10; Xor (M 192) 4 11; Xor (M 224) 3 12; Sll 28 8 13; Sll 20 9 14;
  Sll 3 10 15; Sll 45 11 7; Sll 61 12 6; Srl 36 8 8; Srl 44 9 9; Srl 61 10 10; Srl 19 11 11; Srl 3 12 12;
  Or (R 13) 8 8; Or (R 14) 9 9; Or (R 15) 10 10; Or (R 7) 11 11; Or (R 6) 12 12; Andn (R 10) 9 13; Andn (R 11) 10 14;
  Andn (R 12) 11 15; Andn (R 8) 12 7; Andn (R 9) 8 6; Xor (R 8) 13 13; Xor (R 9) 14 14; Xor (R 10) 15 15;
  Xor (R 11) 7 7; Xor (R 12) 6 6; St 13 160; St 14 192; St 15 224; St 7 256; St 6 288; Xor (M 352) 4 8; Xor (M 384) 3 9;
  Xor (M 416) 2 10; Xor (M 448) 1 11; Xor (M 320) 5 12; Sll 1 8 13; Sll 6 9 14; Sll 25 10 15; Sll 18 12 6;
  Srl 63 8 8; Srl 58 9 9; Srl 39 10 10; Srl 46 12 12; Or (R 13) 8 8; Or (R 14) 9 9; Or (R 15) 10 10; Shufb (R 0) 11 11;
  Or (R 6) 12 12; Andn (R 10) 9 13; Andn (R 11) 10 14; Andn (R 12) 11 15; Andn (R 8) 12 7; Andn (R 9) 8 6;
  Xor (R 8) 13 13; Xor (R 9) 14 14; Xor (R 10) 15 15; Xor (R 11) 7 7; Xor (R 12) 6 6; St 13 320; St 14 352;
  St 15 384; St 7 416; St 6 448; Xor (M 608) 1 8; Xor (M 480) 5 9; Xor (M 512) 4 10; Xor (M 544) 3 11; Xor (M 576) 2 12;
  Sll 27 8 13; Sll 36 9 14; Sll 10 10 15; Sll 15 11 7; Srl 37 8 8; Srl 28 9 9; Srl 54 10 10; Srl 49 11 11;
  Or (R 13) 8 8; Or (R 14) 9 9; Or (R 15) 10 10; Or (R 7) 11 11; Shufb (T56) 12 12; Andn (R 10) 9 13; Andn (R 11) 10 14;
  Andn (R 12) 11 15; Andn (R 8) 12 7; Andn (R 9) 8 6; Xor (R 8) 13 13; Xor (R 9) 14 14; Xor (R 10) 15 15;
  Xor (R 11) 7 7; Xor (R 12) 6 6; St 13 480; St 14 512; St 15 544; St 7 576; St 6 608; Xor (M 704) 3 8; Xor (M 736) 2 9;
  Xor (M 768) 1 10; Xor (M 640) 5 11; Xor (M 672) 4 12; Sll 62 8 13; Sll 55 9 14; Sll 39 10 15; Sll 41 11 7;
  Sll 2 12 6; Srl 2 8 8; Srl 9 9 9; Srl 25 10 10; Srl 23 11 11; Srl 62 12 12; Or (R 13) 8 8; Or (R 14) 9 9;
  Or (R 15) 10 10; Or (R 7) 11 11; Or (R 6) 12 12; Andn (R 10) 9 13; Andn (R 11) 10 14; Andn (R 12) 11 15;
  Andn (R 8) 12 7; Andn (R 9) 8 6; Xor (R 8) 13 13; Xor (R 9) 14 14; Xor (R 10) 15 15; Xor (R 11) 7 7; Xor (R 12) 6 6;
  St 13 640; St 14 672; St 15 704; St 7 736; St 6 768].

(** f1600x4.S 21-908: the loop; %rax is [k], %rsi points to [rc]. *)
Fixpoint looptop (k : nat) (rc : list Z) (s : mach) : crun mach :=
  match k with
  | O => CRet s
  | S k' => do s' <- steps rc (round0 ++ round1 ++ round2 ++ round3) s ;; looptop k' (skipn 4 rc) s'
  end.
(** f1600x4.S 19-909: [f1600x4]; [regs] is what the vector registers hold on entry. *)
Definition f1600x4 (regs s : list vec) (rc : list Z) : crun (list vec) :=
  do m <- step rc (Mach regs s) (Ld T8 0) ;;
  do m' <- looptop 6 rc m ;;
  CRet (ymem m').

(** ** fips202x4.c *)
(** 10-36. *)
Definition RoundConstants4 : list Z :=
  [1; 32898; 9223372036854808714; 9223372039002292224;
   32907; 2147483649; 9223372039002292353; 9223372036854808585;
   138; 136; 2147516425; 2147483658;
   2147516555; 9223372036854775947; 9223372036854808713; 9223372036854808579;
   9223372036854808578; 9223372036854775936; 32778; 9223372039002259466;
   9223372039002292353; 9223372036854808704; 2147483649; 9223372039002292232].
(** [_mm256_i64gather_epi64] at [pos] in each of the four buffers: outside one, undefined. *)
Definition gather (ins : list bytes) (pos : nat) : crun vec :=
  mapM (fun b => if (pos + 8 <=? length b)%nat then CRet (load64 (firstn 8 (skipn pos b))) else CUB) ins.
(** 59-63 and 69-73: n vectors from [pos] on are added to the first n of the state. *)
Fixpoint xor_gather (ins : list bytes) (n i pos : nat) (s : list vec) : crun (list vec) :=
  match n with
  | O => CRet s
  | S n' => do t <- gather ins pos ;;
            xor_gather ins n' (S i) (pos + 8) (put s i (map2 Z.lxor (nth i s zero4) t))
  end.
(** 58-67: while (inlen >= r); inlen iterations suffice. *)
Fixpoint absorb4_loop (fuel : nat) (regs : list vec) (r : nat) (ins : list bytes) (inlen pos : nat) (s : list vec) : crun (nat * nat * list vec) :=
  match fuel with
  | O => CFuel
  | S f => if (r <=? inlen)%nat then
             do s1 <- xor_gather ins (r / 8) 0 pos s ;;
             do s2 <- f1600x4 regs s1 RoundConstants4 ;;
             absorb4_loop f regs r ins (inlen - r) (pos + 8 * (r / 8)) s2
           else CRet (inlen, pos, s)
  end.
(** 38-86: [keccakx4_absorb_once]; [ins] is the four buffers, which may be longer than [inlen]. *)
Definition keccakx4_absorb_once (regs : list vec) (r : nat) (ins : list bytes) (inlen : nat) (p : Z) : crun (list vec) :=
  do st <- absorb4_loop (S inlen) regs r ins inlen 0 (repeat zero4 25) ;;
  let '(inlen, pos, s) := st in
  let i := (inlen / 8)%nat in
  do s <- xor_gather ins i 0 pos s ;;
  let pos := (pos + 8 * i)%nat in
  let inlen := (inlen - 8 * i)%nat in
  do s <- (if (inlen =? 0)%nat then CRet s
           else do t <- gather ins pos ;;
                let m := u64 (Z.shiftl 1 (8 * Z.of_nat inlen)) - 1 in
                CRet (put s i (map2 Z.lxor (nth i s zero4) (map (fun x => Z.land x m) t)))) ;;
  let s := put s i (map2 Z.lxor (nth i s zero4) (repeat (u64 (Z.shiftl p (8 * Z.of_nat inlen))) 4)) in
  CRet (put s (r / 8 - 1) (map2 Z.lxor (nth (r / 8 - 1) s zero4) (repeat (u64 (Z.shiftl 1 63)) 4))).
(** 98-117: what one pass of the loop writes to the four outputs ([storel], [storeh] of the two halves). *)
Definition out_block (r : nat) (s : list vec) : list bytes :=
  map (fun j => flat_map (fun v => store64 (nth j v 0)) (firstn (r / 8) s)) (seq 0 4).
(** 88-125: [keccakx4_squeezeblocks]: the bytes written to out0 .. out3 and the state. *)
Fixpoint keccakx4_squeezeblocks (regs : list vec) (nblocks r : nat) (s : list vec) : crun (list bytes * list vec) :=
  match nblocks with
  | O => CRet (repeat [] 4, s)
  | S n => do s <- f1600x4 regs s RoundConstants4 ;;
           do (o, s') <- keccakx4_squeezeblocks regs n r s ;;
           CRet (map2 (@app Z) (out_block r s) o, s')
  end.
(** 127-169. *)
Definition shake128x4_absorb_once (regs : list vec) (ins : list bytes) (inlen : nat) := keccakx4_absorb_once regs R_SHAKE128 ins inlen 31.
Definition shake128x4_squeezeblocks (regs : list vec) (nblocks : nat) (s : list vec) := keccakx4_squeezeblocks regs nblocks R_SHAKE128 s.
Definition shake256x4_absorb_once (regs : list vec) (ins : list bytes) (inlen : nat) := keccakx4_absorb_once regs R_SHAKE256 ins inlen 31.
Definition shake256x4_squeezeblocks (regs : list vec) (nblocks : nat) (s : list vec) := keccakx4_squeezeblocks regs nblocks R_SHAKE256 s.
(** 171-210 and 212-251: [shake128x4], [shake256x4]. *)
Definition c_shakex4 (regs : list vec) (r outlen : nat) (ins : list bytes) (inlen : nat) : crun (list bytes) :=
  let nblocks := (outlen / r)%nat in
  do s <- keccakx4_absorb_once regs r ins inlen 31 ;;
  do (o, s) <- keccakx4_squeezeblocks regs nblocks r s ;;
  let outlen := (outlen - nblocks * r)%nat in
  if (outlen =? 0)%nat then CRet o
  else do (t, _) <- keccakx4_squeezeblocks regs 1 r s ;;
       CRet (map2 (fun a b => a ++ firstn outlen b) o t).
