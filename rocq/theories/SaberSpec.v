(** * SaberSpec: specification vocabulary for the Saber theorems.

    Integer polynomials modulo x^256 + 1, the rounding error, and the accumulated noise of
    an encryption, written over the integers and without reference to the library's modular
    arithmetic, packing or reconciliation code. *)
From Coq Require Import ZArith List.
From Verif Require Import Ring.
Import ListNotations.
Open Scope Z_scope.

(** The integer in [-2^15, 2^15) with the given 16-bit two's complement representation. *)
Definition signed16 (x : Z) : Z := if x <? 32768 then x else x - 65536.

Fixpoint sum_list (l : list Z) : Z := match l with [] => 0 | x :: t => x + sum_list t end.

(** Coefficient k of the inner product of two vectors of K integer polynomials mod x^256+1. *)
Definition zdot (K : nat) (a b : list (list Z)) (k : nat) : Z :=
  sum_list (map (fun i => negacyclic 256 (nth i a []) (nth i b []) k) (seq 0 K)).

(** The matrix-vector products A s and A^T s. *)
Definition zmat (K : nat) (A : list (list (list Z))) (s : list (list Z)) : list (list Z) :=
  map (fun i => map (zdot K (nth i A []) s) (seq 0 256)) (seq 0 K).
Definition ztranspose (K : nat) (A : list (list (list Z))) : list (list (list Z)) :=
  map (fun i => map (fun j => nth i (nth j A []) []) (seq 0 K)) (seq 0 K).

(** The error of rounding x to the nearest multiple of 8 (halves up). *)
Definition round_err (x : Z) : Z := 8 * ((x + 4) / 8) - x.

(** Coefficient k of the noise: <e, t> - <e', s> where e, e' are the rounding errors of A s
    and A^T t. *)
Definition noise (K : nat) (A : list (list (list Z))) (s t : list (list Z)) (k : nat) : Z :=
  zdot K (map (map round_err) (zmat K A s)) t k
  - zdot K (map (map round_err) (zmat K (ztranspose K A) t)) s k.

(** Bit k of a message, least significant bit of the first byte first. *)
Definition msg_bit (m : list Z) (k : nat) : Z := (nth (k / 8) m 0 / 2 ^ Z.of_nat (k mod 8)) mod 2.

(** ** Centred binomial sampling from a byte stream *)
(** Bit i of a byte stream, least significant bit of the first byte first. *)
Definition stream_bit (S : nat -> Z) (i : nat) : Z :=
  (S (i / 8)%nat mod 256 / 2 ^ Z.of_nat (i mod 8)) mod 2.
(** Number of ones among the n bits starting at position i. *)
Definition ones (S : nat -> Z) (i n : nat) : Z :=
  sum_list (map (fun j => stream_bit S (i + j)) (seq 0 n)).
(** The n-th sample: the n-th block of mu bits, first half minus second half. *)
Definition binomial_sample (S : nat -> Z) (mu n : nat) : Z :=
  ones S (mu * n) (mu / 2) - ones S (mu * n + mu / 2) (mu / 2).
