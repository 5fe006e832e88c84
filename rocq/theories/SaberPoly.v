(** * SaberPoly: model of saber-rust/src/poly.rs and params.rs.

    A [Poly] (poly.rs 6-11, an array of 256 [U16]) is a list of 256 integers in
    [0, 65536).  [secret_integers::U16] arithmetic wraps modulo 2^16. *)
From Coq Require Import ZArith List.
From Verif Require Import Base.
Import ListNotations.
Open Scope Z_scope.

Notation poly := (list Z).

(** params.rs 11-26: N, P, EPS_P, EPS_Q, buffer lengths, MSG2POL_CONST. *)
Definition DEG : nat := 256.
Definition P : Z := 1024.
Definition EPS_P : Z := 10.
Definition EPS_Q : Z := 13.
Definition COINBYTES : nat := 32.
Definition HASHBYTES : nat := 32.
Definition KEYBYTES : nat := 32.
Definition MESSAGEBYTES : nat := 32.
Definition NOISE_SEEDBYTES : nat := 32.
Definition SEEDBYTES : nat := 32.
Definition MSG2POL_CONST : Z := 9.

(** poly.rs 101-107: [Poly::default]. *)
Definition pzero : poly := repeat 0 DEG.

(** poly.rs 13-22: [impl Add for Poly]. *)
Definition padd (a b : poly) : poly := map2 (fun x y => u16 (x + y)) a b.
(** poly.rs 24-33: [impl Add<U16> for Poly]. *)
Definition padd_c (a : poly) (c : Z) : poly := map (fun x => u16 (x + c)) a.
(** poly.rs 35-44: [impl Sub for Poly]. *)
Definition psub (a b : poly) : poly := map2 (fun x y => u16 (x - y)) a b.
(** poly.rs 46-55: [impl Sub<U16> for Poly]. *)
Definition psub_c (a : poly) (c : Z) : poly := map (fun x => u16 (x - c)) a.

(** Array store [c[k] = v]. *)
Fixpoint upd (c : poly) (k : nat) (v : Z) : poly :=
  match c, k with
  | [], _ => []
  | _ :: t, O => v :: t
  | h :: t, S k' => h :: upd t k' v
  end.

(** poly.rs 64-74: the body of the double loop of [impl Mul for Poly], for degree [n].
    Inner loop 1 (66-68) runs j over 0..N-i, inner loop 2 (71-73) over N-i..N. *)
Definition mul_add (a b : poly) (i : nat) (c : poly) (j : nat) : poly :=
  upd c (i + j) (u16 (at_ c (i + j) + u16 (at_ a i * at_ b j))).
Definition mul_sub (n : nat) (a b : poly) (i : nat) (c : poly) (j : nat) : poly :=
  upd c (i + j - n) (u16 (at_ c (i + j - n) - u16 (at_ a i * at_ b j))).
Definition mul_row (n : nat) (a b : poly) (c : poly) (i : nat) : poly :=
  fold_left (mul_sub n a b i) (seq (n - i) i)
    (fold_left (mul_add a b i) (seq 0 (n - i)) c).
Definition pmul_n (n : nat) (a b : poly) : poly :=
  fold_left (mul_row n a b) (seq 0 n) (repeat 0 n).

(** poly.rs 57-77: [impl Mul for Poly]. *)
Definition pmul (a b : poly) : poly := pmul_n DEG a b.

(** poly.rs 79-88: [impl Shl<u32>]. *)
Definition pshl (a : poly) (k : Z) : poly := map (fun x => u16 (Z.shiftl x k)) a.
(** poly.rs 90-99: [impl Shr<u32>]. *)
Definition pshr (a : poly) (k : Z) : poly := map (fun x => Z.shiftr x k) a.

(** poly.rs 110-120: [Poly::reduce]; the debug_assert on m is not modelled, the only
    caller passes P = 1024. *)
Definition reduce (m : Z) (a : poly) : poly := map (fun x => Z.land x (m - 1)) a.

(** Writing decoded chunks over a default polynomial: [zip] stops at the shorter side, so
    missing coefficients stay 0 and surplus chunks are ignored.  (The debug_assert on the
    input length is not modelled; all callers in the crate pass the exact length.) *)
Definition fill_poly (l : list Z) : poly := firstn DEG (l ++ repeat 0 DEG).

(** [U16 << k] and [U8 << k]: bits shifted out are lost. *)
Definition shl16 (x k : Z) : Z := u16 (Z.shiftl x k).
Definition shl8 (x k : Z) : Z := u8 (Z.shiftl x k).

Infix ".|" := Z.lor (at level 50, left associativity) : Z_scope.
Infix ".&" := Z.land (at level 40, left associativity) : Z_scope.
Infix ">>" := Z.shiftr (at level 36, left associativity) : Z_scope.

(** poly.rs 126-145 (body of the loop): 13 bytes to 8 coefficients, then the final mask of
    146-148. *)
Definition unpack13 (bs : list Z) : list Z :=
  map (fun c => c .& 8191)
  [ at_ bs 0 .| shl16 (at_ bs 1) 8;
    (at_ bs 1 >> 5) .| shl16 (at_ bs 2) 3 .| shl16 (at_ bs 3) 11;
    (at_ bs 3 >> 2) .| shl16 (at_ bs 4) 6;
    (at_ bs 4 >> 7) .| shl16 (at_ bs 5) 1 .| shl16 (at_ bs 6) 9;
    (at_ bs 6 >> 4) .| shl16 (at_ bs 7) 4 .| shl16 (at_ bs 8) 12;
    (at_ bs 8 >> 1) .| shl16 (at_ bs 9) 7;
    (at_ bs 9 >> 6) .| shl16 (at_ bs 10) 2 .| shl16 (at_ bs 11) 10;
    (at_ bs 11 >> 3) .| shl16 (at_ bs 12) 5 ].
(** poly.rs 122-150: [Poly::from_bytes_13bit]. *)
Definition from_bytes_13bit (b : bytes) : poly :=
  fill_poly (flat_map unpack13 (chunks_exact 13 b)).

(** poly.rs 156-165: 5 bytes to 4 coefficients. *)
Definition unpack10 (bs : list Z) : list Z :=
  [ (at_ bs 0 .& 255) .| shl16 (at_ bs 1 .& 3) 8;
    ((at_ bs 1 >> 2) .& 63) .| shl16 (at_ bs 2 .& 15) 6;
    ((at_ bs 2 >> 4) .& 15) .| shl16 (at_ bs 3 .& 63) 4;
    ((at_ bs 3 >> 6) .& 3) .| shl16 (at_ bs 4) 2 ].
(** poly.rs 152-167: [Poly::from_bytes_10bit]. *)
Definition from_bytes_10bit (b : bytes) : poly :=
  fill_poly (flat_map unpack10 (chunks_exact 5 b)).

(** poly.rs 174-181: 3 bytes to 4 coefficients. *)
Definition unpack6 (bs : list Z) : list Z :=
  [ at_ bs 0 .& 63;
    ((at_ bs 0 >> 6) .& 3) .| shl8 (at_ bs 1 .& 15) 2;
    ((at_ bs 1 >> 4) .& 15) .| shl8 (at_ bs 2 .& 3) 4;
    at_ bs 2 >> 2 ].
(** poly.rs 169-183: [Poly::from_bytes_6bit]. *)
Definition from_bytes_6bit (b : bytes) : poly :=
  fill_poly (flat_map unpack6 (chunks_exact 3 b)).

(** poly.rs 189-192: one byte to 2 coefficients. *)
Definition unpack4 (b : Z) : list Z := [ b .& 15; b >> 4 ].
(** poly.rs 185-194: [Poly::from_bytes_4bit]. *)
Definition from_bytes_4bit (b : bytes) : poly := fill_poly (flat_map unpack4 b).

(** poly.rs 200-211: 3 bytes to 8 coefficients. *)
Definition unpack3 (bs : list Z) : list Z :=
  [ at_ bs 0 .& 7;
    (at_ bs 0 >> 3) .& 7;
    ((at_ bs 0 >> 6) .& 3) .| shl8 (at_ bs 1 .& 1) 2;
    (at_ bs 1 >> 1) .& 7;
    (at_ bs 1 >> 4) .& 7;
    ((at_ bs 1 >> 7) .& 1) .| shl8 (at_ bs 2 .& 3) 1;
    (at_ bs 2 >> 2) .& 7;
    (at_ bs 2 >> 5) .& 7 ].
(** poly.rs 196-213: [Poly::from_bytes_3bit]. *)
Definition from_bytes_3bit (b : bytes) : poly :=
  fill_poly (flat_map unpack3 (chunks_exact 3 b)).

(** poly.rs 219-224: one message byte to 8 coefficients. *)
Definition unpack_msg (b : Z) : list Z :=
  map (fun idx => shl16 ((b >> Z.of_nat idx) .& 1) MSG2POL_CONST) (seq 0 8).
(** poly.rs 215-226: [Poly::from_msg]. *)
Definition from_msg (m : bytes) : poly := fill_poly (flat_map unpack_msg m).

(** poly.rs 232-246: 8 coefficients to 13 bytes. *)
Definition pack13 (cs : list Z) : list Z :=
  [ u8 (at_ cs 0 .& 255);
    u8 ((at_ cs 0 >> 8) .& 31) .| u8 (shl16 (at_ cs 1 .& 7) 5);
    u8 ((at_ cs 1 >> 3) .& 255);
    u8 ((at_ cs 1 >> 11) .& 3) .| u8 (shl16 (at_ cs 2 .& 63) 2);
    u8 ((at_ cs 2 >> 6) .& 127) .| u8 (shl16 (at_ cs 3 .& 1) 7);
    u8 ((at_ cs 3 >> 1) .& 255);
    u8 ((at_ cs 3 >> 9) .& 15) .| u8 (shl16 (at_ cs 4 .& 15) 4);
    u8 ((at_ cs 4 >> 4) .& 255);
    u8 ((at_ cs 4 >> 12) .& 1) .| u8 (shl16 (at_ cs 5 .& 127) 1);
    u8 ((at_ cs 5 >> 7) .& 63) .| u8 (shl16 (at_ cs 6 .& 3) 6);
    u8 ((at_ cs 6 >> 2) .& 255);
    u8 ((at_ cs 6 >> 10) .& 7) .| u8 (shl16 (at_ cs 7 .& 31) 3);
    u8 ((at_ cs 7 >> 5) .& 255) ].
(** poly.rs 228-248: [Poly::read_bytes_13bit] (returns the bytes instead of writing them
    into a buffer of exactly that size). *)
Definition read_bytes_13bit (p : poly) : bytes := flat_map pack13 (chunks_exact 8 p).

(** poly.rs 254-260: 4 coefficients to 5 bytes. *)
Definition pack10 (cs : list Z) : list Z :=
  [ u8 (at_ cs 0 .& 255);
    u8 ((at_ cs 0 >> 8) .& 3) .| u8 (shl16 (at_ cs 1 .& 63) 2);
    u8 ((at_ cs 1 >> 6) .& 15) .| u8 (shl16 (at_ cs 2 .& 15) 4);
    u8 ((at_ cs 2 >> 4) .& 63) .| u8 (shl16 (at_ cs 3 .& 3) 6);
    u8 ((at_ cs 3 >> 2) .& 255) ].
(** poly.rs 250-262: [Poly::read_bytes_10bit]. *)
Definition read_bytes_10bit (p : poly) : bytes := flat_map pack10 (chunks_exact 4 p).

(** poly.rs 268-272: 4 coefficients to 3 bytes. *)
Definition pack6 (cs : list Z) : list Z :=
  [ u8 (at_ cs 0 .& 63) .| u8 (shl16 (at_ cs 1 .& 3) 6);
    u8 ((at_ cs 1 >> 2) .& 15) .| u8 (shl16 (at_ cs 2 .& 15) 4);
    u8 ((at_ cs 2 >> 4) .& 3) .| u8 (shl16 (at_ cs 3 .& 63) 2) ].
(** poly.rs 264-274: [Poly::read_bytes_6bit]. *)
Definition read_bytes_6bit (p : poly) : bytes := flat_map pack6 (chunks_exact 4 p).

(** poly.rs 280-282: 2 coefficients to one byte. *)
Definition pack4 (cs : list Z) : list Z :=
  [ u8 (at_ cs 0 .& 15) .| u8 (shl16 (at_ cs 1 .& 15) 4) ].
(** poly.rs 276-284: [Poly::read_bytes_4bit]. *)
Definition read_bytes_4bit (p : poly) : bytes := flat_map pack4 (chunks_exact 2 p).

(** poly.rs 290-301: 8 coefficients to 3 bytes.  Line 297 takes bit 2 of the sixth
    coefficient where the format (and the decoder, 207) has bit 0. *)
Definition pack3 (cs : list Z) : list Z :=
  [ u8 (at_ cs 0 .& 7) .| u8 (shl16 (at_ cs 1 .& 7) 3) .| u8 (shl16 (at_ cs 2 .& 3) 6);
    u8 ((at_ cs 2 >> 2) .& 1) .| u8 (shl16 (at_ cs 3 .& 7) 1)
      .| u8 (shl16 (at_ cs 4 .& 7) 4) .| u8 (shl16 ((at_ cs 5 >> 2) .& 1) 7);
    u8 ((at_ cs 5 >> 1) .& 3) .| u8 (shl16 (at_ cs 6 .& 7) 2)
      .| u8 (shl16 (at_ cs 7 .& 7) 5) ].
(** poly.rs 286-303: [Poly::read_bytes_3bit]. *)
Definition read_bytes_3bit (p : poly) : bytes := flat_map pack3 (chunks_exact 8 p).

(** poly.rs 310-315: 8 coefficients to one message byte. *)
Definition pack_msg (cs : list Z) : list Z :=
  [ fold_left (fun b idx => b .| shl8 (u8 (at_ cs idx)) (Z.of_nat idx)) (seq 0 8) 0 ].
(** poly.rs 305-317: [Poly::read_bytes_msg]. *)
Definition read_bytes_msg (p : poly) : bytes := flat_map pack_msg (chunks_exact 8 p).

(** A well-formed [Poly]: 256 values of type U16. *)
Definition wf_poly (p : poly) : Prop := length p = DEG /\ Forall is_u16 p.
