(** * AvxSym: symbolic execution of the AVX2 programs.

    A symbolic lane says which intermediate value of the reference transform (ntt.c) a register
    lane holds.  [AvxSymOk.v] proves that executing a program on symbolic lanes describes its
    execution on integers, for all integers; the run itself is a computation on indices. *)
From Coq Require Import ZArith List Lia Bool.
From Verif Require Import Base Bits DilArith DilNtt AvxMachine.
Import ListNotations.
Open Scope Z_scope.

(** Values: coefficient [j] after [k] layers of the forward (inverse) transform, the difference
    x_(j+len) - x_j inside layer [k] of the inverse one, and the final result. *)
Inductive atom : Type :=
| AF (k : nat) (j : Z)
| AI (k : nat) (j : Z)
| AD (k : nat) (j : Z)
| AE (j : Z).
Inductive sym : Type :=
| SC (z : Z)                       (* a constant *)
| SA (a : atom)
| SLo (z : Z) (a : atom)           (* low half of z * a *)
| SHi (z : Z) (a : atom)           (* high half of z * a *)
| SQ (z : Z) (a : atom)            (* high half of Q * (low half of z * a) *)
| SPlus (a : atom) (z : Z) (b : atom)  (* a + high half of z * b *)
| SMinus (a : atom) (z : Z) (b : atom)
| SX.                              (* anything *)

Definition atom_eqb (a b : atom) : bool :=
  match a, b with
  | AF k j, AF k' j' | AI k j, AI k' j' | AD k j, AD k' j' => Nat.eqb k k' && Z.eqb j j'
  | AE j, AE j' => Z.eqb j j'
  | _, _ => false
  end.

(** Distance of the two inputs of a butterfly in layer [k]. *)
Definition flen (k : nat) : Z := nth k [128; 64; 32; 16; 8; 4; 2; 1] 0.
Definition ilen (k : nat) : Z := nth k [1; 2; 4; 8; 16; 32; 64; 128] 0.
Definition zeta (i : Z) : Z := nth (Z.to_nat i) zetas 0.
(** [zq] is [z] times 1/Q modulo 2^32. *)
Definition qinv_of (z zq : Z) : bool := Z.eqb zq (i32 (z * QINV)).
(** The first word of [qdata]'s zetas: the last inverse layer with the final scaling merged. *)
Definition ZLAST : Z := -3975713.

(** Is (AF k j, AF k j') a butterfly of the forward transform with twiddle [z]? *)
Definition fwd_pair (a : atom) (z : Z) (b : atom) : option (nat * Z) :=
  match a, b with
  | AF k j, AF k' j' =>
      let n := flen k in
      if Nat.eqb k k' && Nat.ltb k 8 && Z.eqb j' (j + n) && Z.leb 0 j && Z.ltb j 256 &&
         Z.ltb (j mod (2 * n)) n && Z.eqb z (zeta (128 / n + j / (2 * n)))
      then Some (k, j) else None
  | _, _ => None
  end.
Definition inv_pair (k : nat) (j : Z) : bool :=
  let n := ilen k in
  Nat.ltb k 8 && Z.leb 0 j && Z.ltb j 256 && Z.ltb (j mod (2 * n)) n.

Definition s_mul (x y : sym) : sym * sym :=
  match x, y with
  | SC z, SA a | SA a, SC z => (SLo z a, SHi z a)
  | SC q, SLo z a | SLo z a, SC q => if Z.eqb q Q then (SX, SQ z a) else (SX, SX)
  | _, _ => (SX, SX)
  end.
Definition s_add (x y : sym) : sym :=
  match x, y with
  | SA a, SHi z b => SPlus a z b
  | SMinus a z b, SQ zq b' =>
      if atom_eqb b b' && qinv_of z zq then
        match fwd_pair a z b with Some (k, j) => SA (AF (S k) (j + flen k)) | None => SX end
      else SX
  | SA (AI k j), SA (AI k' j') =>
      if Nat.eqb k k' && Z.eqb j' (j + ilen k) && inv_pair k j then SA (AI (S k) j) else SX
  | _, _ => SX
  end.
Definition s_sub (x y : sym) : sym :=
  match x, y with
  | SA a, SHi z b => SMinus a z b
  | SPlus a z b, SQ zq b' =>
      if atom_eqb b b' && qinv_of z zq then
        match fwd_pair a z b with Some (k, j) => SA (AF (S k) j) | None => SX end
      else SX
  | SA (AI k' j'), SA (AI k j) =>
      if Nat.eqb k k' && Z.eqb j' (j + ilen k) && inv_pair k j then SA (AD k j) else SX
  | SHi z (AD k j), SQ zq b' =>
      if atom_eqb (AD k j) b' && qinv_of z zq && inv_pair k j then
        if Z.eqb z (zeta (256 / ilen k - 1 - j / (2 * ilen k))) then SA (AI (S k) (j + ilen k))
        else if Nat.eqb k 7 && Z.eqb z ZLAST then SA (AE (j + 128)) else SX
      else SX
  | SHi z (AI k j), SQ zq b' =>
      if atom_eqb (AI k j) b' && qinv_of z zq && Nat.eqb k 8 && Z.eqb z F_INV && Z.leb 0 j && Z.ltb j 128
      then SA (AE j) else SX
  | _, _ => SX
  end.
Definition slane : lane sym := {|
  l_const := SC; l_mul := s_mul; l_add := s_add; l_sub := s_sub;
  l_addq := fun _ _ => (SX, SX); l_subq := fun _ _ => (SX, SX) |}.

Definition sregs : list (list sym) := repeat (repeat SX 8) 16.
Definition srun (p : list instr) (a : list sym) : list sym := concat (mem (run slane p (start sregs a))).
Definition indices : list Z := map Z.of_nat (seq 0 256).
(** The order in which shuffle.S leaves the coefficients: a run on lanes that only remember their
    index (-1: none). *)
Definition ilane : lane Z := {|
  l_const := fun _ => -1; l_mul := fun _ _ => (-1, -1); l_add := fun _ _ => -1; l_sub := fun _ _ => -1;
  l_addq := fun _ _ => (-1, -1); l_subq := fun _ _ => (-1, -1) |}.
Definition tau : list Z := concat (mem (run ilane nttunpack_prog (start (repeat (repeat (-1) 8) 16) indices))).
