(** * Keccak: model of pqcrypto-internals/cfiles/fips202.c (all paths below are to that file).

    The functions of the pseudo-random permutation were transliterated from the C text line by
    line.  A [uint64_t] is a Z in [0, 2^64); shifts to the left and complements are reduced to 64
    bits.  Simplifications: sizes are [nat] ([size_t] sums such as mlen + s_inc[25] do not wrap),
    a buffer that C writes through a pointer is returned, heap-free contexts are values (cloning
    is copying, release does nothing), and the incremental context uint64_t[26] is the pair of
    the 25 lanes and the counter. *)
From Coq Require Import ZArith List Lia Bool.
From Verif Require Import Base.
Import ListNotations.
Open Scope Z_scope.

(** 16: ROL on uint64_t. *)
Definition ROL (a offset : Z) : Z := Z.lxor (u64 (Z.shiftl a offset)) (Z.shiftr a (64 - offset)).
(** ~ on uint64_t. *)
Definition not64 (a : Z) : Z := u64 (Z.lnot a).
(** 27-34: load64. *)
Definition load64 (x : bytes) : Z :=
  fold_left (fun r i => Z.lor r (u64 (Z.shiftl (nth i x 0) (8 * Z.of_nat i)))) (seq 0 8) 0.
(** 44-48: store64. *)
Definition store64 (u : Z) : bytes := map (fun i => u8 (Z.shiftr u (8 * Z.of_nat i))) (seq 0 8).
(** s[i] = v. *)
Definition upd (s : list Z) (i : nat) (v : Z) : list Z := firstn i s ++ match skipn i s with [] => [] | _ :: t => v :: t end.

(** 51-64. *)
Definition KeccakF_RoundConstants : list Z :=
  [1; 32898; 9223372036854808714; 9223372039002292224;
   32907; 2147483649; 9223372039002292353; 9223372036854808585;
   138; 136; 2147516425; 2147483658;
   2147516555; 9223372036854775947; 9223372036854808713; 9223372036854808579;
   9223372036854808578; 9223372036854775936; 32778; 9223372039002259466;
   9223372039002292353; 9223372036854808704; 2147483649; 9223372039002292232].

(** fips202.c 117-210: first half of the loop body, round [round] from A to E. *)
Definition round_AE (rc : Z) (s : list Z) : list Z :=
  match s with
  | [Aba; Abe; Abi; Abo; Abu; Aga; Age; Agi; Ago; Agu; Aka; Ake; Aki; Ako; Aku; Ama; Ame; Ami; Amo; Amu; Asa; Ase; Asi; Aso; Asu] =>
    let BCa := Z.lxor (Z.lxor (Z.lxor (Z.lxor Aba Aga) Aka) Ama) Asa in
    let BCe := Z.lxor (Z.lxor (Z.lxor (Z.lxor Abe Age) Ake) Ame) Ase in
    let BCi := Z.lxor (Z.lxor (Z.lxor (Z.lxor Abi Agi) Aki) Ami) Asi in
    let BCo := Z.lxor (Z.lxor (Z.lxor (Z.lxor Abo Ago) Ako) Amo) Aso in
    let BCu := Z.lxor (Z.lxor (Z.lxor (Z.lxor Abu Agu) Aku) Amu) Asu in
    let Da := Z.lxor BCu (ROL BCe 1) in
    let De := Z.lxor BCa (ROL BCi 1) in
    let Di := Z.lxor BCe (ROL BCo 1) in
    let Do := Z.lxor BCi (ROL BCu 1) in
    let Du := Z.lxor BCo (ROL BCa 1) in
    let Aba := Z.lxor Aba Da in
    let BCa := Aba in
    let Age := Z.lxor Age De in
    let BCe := ROL Age 44 in
    let Aki := Z.lxor Aki Di in
    let BCi := ROL Aki 43 in
    let Amo := Z.lxor Amo Do in
    let BCo := ROL Amo 21 in
    let Asu := Z.lxor Asu Du in
    let BCu := ROL Asu 14 in
    let Eba := Z.lxor BCa (Z.land (not64 BCe) BCi) in
    let Eba := Z.lxor Eba rc in
    let Ebe := Z.lxor BCe (Z.land (not64 BCi) BCo) in
    let Ebi := Z.lxor BCi (Z.land (not64 BCo) BCu) in
    let Ebo := Z.lxor BCo (Z.land (not64 BCu) BCa) in
    let Ebu := Z.lxor BCu (Z.land (not64 BCa) BCe) in
    let Abo := Z.lxor Abo Do in
    let BCa := ROL Abo 28 in
    let Agu := Z.lxor Agu Du in
    let BCe := ROL Agu 20 in
    let Aka := Z.lxor Aka Da in
    let BCi := ROL Aka 3 in
    let Ame := Z.lxor Ame De in
    let BCo := ROL Ame 45 in
    let Asi := Z.lxor Asi Di in
    let BCu := ROL Asi 61 in
    let Ega := Z.lxor BCa (Z.land (not64 BCe) BCi) in
    let Ege := Z.lxor BCe (Z.land (not64 BCi) BCo) in
    let Egi := Z.lxor BCi (Z.land (not64 BCo) BCu) in
    let Ego := Z.lxor BCo (Z.land (not64 BCu) BCa) in
    let Egu := Z.lxor BCu (Z.land (not64 BCa) BCe) in
    let Abe := Z.lxor Abe De in
    let BCa := ROL Abe 1 in
    let Agi := Z.lxor Agi Di in
    let BCe := ROL Agi 6 in
    let Ako := Z.lxor Ako Do in
    let BCi := ROL Ako 25 in
    let Amu := Z.lxor Amu Du in
    let BCo := ROL Amu 8 in
    let Asa := Z.lxor Asa Da in
    let BCu := ROL Asa 18 in
    let Eka := Z.lxor BCa (Z.land (not64 BCe) BCi) in
    let Eke := Z.lxor BCe (Z.land (not64 BCi) BCo) in
    let Eki := Z.lxor BCi (Z.land (not64 BCo) BCu) in
    let Eko := Z.lxor BCo (Z.land (not64 BCu) BCa) in
    let Eku := Z.lxor BCu (Z.land (not64 BCa) BCe) in
    let Abu := Z.lxor Abu Du in
    let BCa := ROL Abu 27 in
    let Aga := Z.lxor Aga Da in
    let BCe := ROL Aga 36 in
    let Ake := Z.lxor Ake De in
    let BCi := ROL Ake 10 in
    let Ami := Z.lxor Ami Di in
    let BCo := ROL Ami 15 in
    let Aso := Z.lxor Aso Do in
    let BCu := ROL Aso 56 in
    let Ema := Z.lxor BCa (Z.land (not64 BCe) BCi) in
    let Eme := Z.lxor BCe (Z.land (not64 BCi) BCo) in
    let Emi := Z.lxor BCi (Z.land (not64 BCo) BCu) in
    let Emo := Z.lxor BCo (Z.land (not64 BCu) BCa) in
    let Emu := Z.lxor BCu (Z.land (not64 BCa) BCe) in
    let Abi := Z.lxor Abi Di in
    let BCa := ROL Abi 62 in
    let Ago := Z.lxor Ago Do in
    let BCe := ROL Ago 55 in
    let Aku := Z.lxor Aku Du in
    let BCi := ROL Aku 39 in
    let Ama := Z.lxor Ama Da in
    let BCo := ROL Ama 41 in
    let Ase := Z.lxor Ase De in
    let BCu := ROL Ase 2 in
    let Esa := Z.lxor BCa (Z.land (not64 BCe) BCi) in
    let Ese := Z.lxor BCe (Z.land (not64 BCi) BCo) in
    let Esi := Z.lxor BCi (Z.land (not64 BCo) BCu) in
    let Eso := Z.lxor BCo (Z.land (not64 BCu) BCa) in
    let Esu := Z.lxor BCu (Z.land (not64 BCa) BCe) in
    [Eba; Ebe; Ebi; Ebo; Ebu; Ega; Ege; Egi; Ego; Egu; Eka; Eke; Eki; Eko; Eku; Ema; Eme; Emi; Emo; Emu; Esa; Ese; Esi; Eso; Esu]
  | _ => s
  end.

(** fips202.c 212-305: second half of the loop body, round [round + 1] from E to A. *)
Definition round_EA (rc : Z) (s : list Z) : list Z :=
  match s with
  | [Eba; Ebe; Ebi; Ebo; Ebu; Ega; Ege; Egi; Ego; Egu; Eka; Eke; Eki; Eko; Eku; Ema; Eme; Emi; Emo; Emu; Esa; Ese; Esi; Eso; Esu] =>
    let BCa := Z.lxor (Z.lxor (Z.lxor (Z.lxor Eba Ega) Eka) Ema) Esa in
    let BCe := Z.lxor (Z.lxor (Z.lxor (Z.lxor Ebe Ege) Eke) Eme) Ese in
    let BCi := Z.lxor (Z.lxor (Z.lxor (Z.lxor Ebi Egi) Eki) Emi) Esi in
    let BCo := Z.lxor (Z.lxor (Z.lxor (Z.lxor Ebo Ego) Eko) Emo) Eso in
    let BCu := Z.lxor (Z.lxor (Z.lxor (Z.lxor Ebu Egu) Eku) Emu) Esu in
    let Da := Z.lxor BCu (ROL BCe 1) in
    let De := Z.lxor BCa (ROL BCi 1) in
    let Di := Z.lxor BCe (ROL BCo 1) in
    let Do := Z.lxor BCi (ROL BCu 1) in
    let Du := Z.lxor BCo (ROL BCa 1) in
    let Eba := Z.lxor Eba Da in
    let BCa := Eba in
    let Ege := Z.lxor Ege De in
    let BCe := ROL Ege 44 in
    let Eki := Z.lxor Eki Di in
    let BCi := ROL Eki 43 in
    let Emo := Z.lxor Emo Do in
    let BCo := ROL Emo 21 in
    let Esu := Z.lxor Esu Du in
    let BCu := ROL Esu 14 in
    let Aba := Z.lxor BCa (Z.land (not64 BCe) BCi) in
    let Aba := Z.lxor Aba rc in
    let Abe := Z.lxor BCe (Z.land (not64 BCi) BCo) in
    let Abi := Z.lxor BCi (Z.land (not64 BCo) BCu) in
    let Abo := Z.lxor BCo (Z.land (not64 BCu) BCa) in
    let Abu := Z.lxor BCu (Z.land (not64 BCa) BCe) in
    let Ebo := Z.lxor Ebo Do in
    let BCa := ROL Ebo 28 in
    let Egu := Z.lxor Egu Du in
    let BCe := ROL Egu 20 in
    let Eka := Z.lxor Eka Da in
    let BCi := ROL Eka 3 in
    let Eme := Z.lxor Eme De in
    let BCo := ROL Eme 45 in
    let Esi := Z.lxor Esi Di in
    let BCu := ROL Esi 61 in
    let Aga := Z.lxor BCa (Z.land (not64 BCe) BCi) in
    let Age := Z.lxor BCe (Z.land (not64 BCi) BCo) in
    let Agi := Z.lxor BCi (Z.land (not64 BCo) BCu) in
    let Ago := Z.lxor BCo (Z.land (not64 BCu) BCa) in
    let Agu := Z.lxor BCu (Z.land (not64 BCa) BCe) in
    let Ebe := Z.lxor Ebe De in
    let BCa := ROL Ebe 1 in
    let Egi := Z.lxor Egi Di in
    let BCe := ROL Egi 6 in
    let Eko := Z.lxor Eko Do in
    let BCi := ROL Eko 25 in
    let Emu := Z.lxor Emu Du in
    let BCo := ROL Emu 8 in
    let Esa := Z.lxor Esa Da in
    let BCu := ROL Esa 18 in
    let Aka := Z.lxor BCa (Z.land (not64 BCe) BCi) in
    let Ake := Z.lxor BCe (Z.land (not64 BCi) BCo) in
    let Aki := Z.lxor BCi (Z.land (not64 BCo) BCu) in
    let Ako := Z.lxor BCo (Z.land (not64 BCu) BCa) in
    let Aku := Z.lxor BCu (Z.land (not64 BCa) BCe) in
    let Ebu := Z.lxor Ebu Du in
    let BCa := ROL Ebu 27 in
    let Ega := Z.lxor Ega Da in
    let BCe := ROL Ega 36 in
    let Eke := Z.lxor Eke De in
    let BCi := ROL Eke 10 in
    let Emi := Z.lxor Emi Di in
    let BCo := ROL Emi 15 in
    let Eso := Z.lxor Eso Do in
    let BCu := ROL Eso 56 in
    let Ama := Z.lxor BCa (Z.land (not64 BCe) BCi) in
    let Ame := Z.lxor BCe (Z.land (not64 BCi) BCo) in
    let Ami := Z.lxor BCi (Z.land (not64 BCo) BCu) in
    let Amo := Z.lxor BCo (Z.land (not64 BCu) BCa) in
    let Amu := Z.lxor BCu (Z.land (not64 BCa) BCe) in
    let Ebi := Z.lxor Ebi Di in
    let BCa := ROL Ebi 62 in
    let Ego := Z.lxor Ego Do in
    let BCe := ROL Ego 55 in
    let Eku := Z.lxor Eku Du in
    let BCi := ROL Eku 39 in
    let Ema := Z.lxor Ema Da in
    let BCo := ROL Ema 41 in
    let Ese := Z.lxor Ese De in
    let BCu := ROL Ese 2 in
    let Asa := Z.lxor BCa (Z.land (not64 BCe) BCi) in
    let Ase := Z.lxor BCe (Z.land (not64 BCi) BCo) in
    let Asi := Z.lxor BCi (Z.land (not64 BCo) BCu) in
    let Aso := Z.lxor BCo (Z.land (not64 BCu) BCa) in
    let Asu := Z.lxor BCu (Z.land (not64 BCa) BCe) in
    [Aba; Abe; Abi; Abo; Abu; Aga; Age; Agi; Ago; Agu; Aka; Ake; Aki; Ako; Aku; Ama; Ame; Ami; Amo; Amu; Asa; Ase; Asi; Aso; Asu]
  | _ => s
  end.

(** 73-334: KeccakF1600_StatePermute; 12 iterations of two rounds. *)
Definition StatePermute (s : list Z) : list Z :=
  fold_left (fun s k => round_EA (nth (2 * k + 1) KeccakF_RoundConstants 0)
                          (round_AE (nth (2 * k) KeccakF_RoundConstants 0) s)) (seq 0 12) s.

(** 360-362 and 377-379: for (i = 0; i < r / 8; ++i) s[i] ^= load64(m + 8 * i). *)
Definition xor_block (r : nat) (s : list Z) (m : bytes) : list Z :=
  fold_left (fun s i => upd s i (Z.lxor (nth i s 0) (load64 (firstn 8 (skipn (8 * i) m))))) (seq 0 (r / 8)) s.
(** 359-367: while (mlen >= r); [fuel] bounds the number of iterations, mlen suffices. *)
Fixpoint absorb_loop (fuel r : nat) (s : list Z) (m : bytes) : list Z * bytes :=
  match fuel with
  | O => (s, m)
  | S f => if (r <=? length m)%nat then absorb_loop f r (StatePermute (xor_block r s m)) (skipn r m) else (s, m)
  end.
(** 349-380: keccak_absorb. *)
Definition keccak_absorb (r : nat) (m : bytes) (p : Z) : list Z :=
  let (s, m) := absorb_loop (length m) r (repeat 0 25) m in
  let t := repeat 0 r in
  let t := m ++ skipn (length m) t in
  let t := upd t (length m) p in
  let t := upd t (r - 1) (Z.lor (nth (r - 1) t 0) 128) in
  xor_block r s t.

(** 395-405: keccak_squeezeblocks. *)
Fixpoint keccak_squeezeblocks (nblocks r : nat) (s : list Z) : bytes * list Z :=
  match nblocks with
  | O => ([], s)
  | S n => let s := StatePermute s in
           let h := flat_map store64 (firstn (r / 8) s) in
           let (h', s) := keccak_squeezeblocks n r s in (h ++ h', s)
  end.

(** The incremental context. *)
Definition incctx : Type := list Z * nat.
(** 417-424: keccak_inc_init. *)
Definition keccak_inc_init : incctx := (repeat 0 25, 0%nat).
(** 449 and 459: s_inc[pos >> 3] ^= (uint64_t)b << (8 * (pos & 7)). *)
Definition xor_byte (s : list Z) (pos : nat) (b : Z) : list Z :=
  upd s (pos / 8) (Z.lxor (nth (pos / 8) s 0) (u64 (Z.shiftl b (8 * Z.of_nat (pos mod 8))))).
(** 446-450 and 458-460: the loops over the n first bytes of m. *)
Definition xor_at (s : list Z) (pos : nat) (m : bytes) (n : nat) : list Z :=
  fold_left (fun s i => xor_byte s (pos + i) (nth i m 0)) (seq 0 n) s.
(** 445-456: while (mlen + s_inc[25] >= r); mlen + s_inc[25] iterations suffice. *)
Fixpoint inc_absorb_loop (fuel r : nat) (c : incctx) (m : bytes) : incctx * bytes :=
  match fuel with
  | O => (c, m)
  | S f => let (s, n) := c in
    if (r <=? length m + n)%nat
    then inc_absorb_loop f r (StatePermute (xor_at s n m (r - n)), 0%nat) (skipn (r - n) m)
    else (c, m)
  end.
(** 440-462: keccak_inc_absorb. *)
Definition keccak_inc_absorb (r : nat) (c : incctx) (m : bytes) : incctx :=
  let '((s, n), m) := inc_absorb_loop (length m + snd c) r c m in
  (xor_at s n m (length m), (n + length m)%nat).
(** 477-483: keccak_inc_finalize. *)
Definition keccak_inc_finalize (r : nat) (p : Z) (c : incctx) : incctx :=
  let (s, n) := c in
  (xor_byte (xor_byte s n p) (r - 1) 128, 0%nat).
(** 506 and 517: (uint8_t)(s_inc[pos >> 3] >> (8 * (pos & 7))). *)
Definition state_byte (s : list Z) (pos : nat) : Z := u8 (Z.shiftr (nth (pos / 8) s 0) (8 * Z.of_nat (pos mod 8))).
(** 513-522: while (outlen > 0); outlen iterations suffice. *)
Fixpoint inc_squeeze_loop (fuel r : nat) (outlen : nat) (c : incctx) : bytes * incctx :=
  match fuel with
  | O => ([], c)
  | S f => match outlen with
    | O => ([], c)
    | _ => let s := StatePermute (fst c) in
           let i := Nat.min outlen r in
           let h := map (state_byte s) (seq 0 i) in
           let (h', c') := inc_squeeze_loop f r (outlen - i) (s, (r - i)%nat) in (h ++ h', c')
    end
  end.
(** 498-523: keccak_inc_squeeze. *)
Definition keccak_inc_squeeze (r outlen : nat) (c : incctx) : bytes * incctx :=
  let (s, n) := c in
  let i := Nat.min outlen n in
  let h := map (fun i => state_byte s (r - n + i)) (seq 0 i) in
  let (h', c') := inc_squeeze_loop (outlen - i) r (outlen - i) (s, (n - i)%nat) in (h ++ h', c').

(** fips202.h 7-11. *)
Definition R_SHAKE128 : nat := 168.
Definition R_SHAKE256 : nat := 136.
Definition R_SHA3_256 : nat := 136.
Definition R_SHA3_384 : nat := 104.
Definition R_SHA3_512 : nat := 72.

(** 525-547: shake128_inc_*. *)
Definition shake128_inc_init : incctx := keccak_inc_init.
Definition shake128_inc_absorb (c : incctx) (m : bytes) : incctx := keccak_inc_absorb R_SHAKE128 c m.
Definition shake128_inc_finalize (c : incctx) : incctx := keccak_inc_finalize R_SHAKE128 31 c.
Definition shake128_inc_squeeze (outlen : nat) (c : incctx) : bytes * incctx := keccak_inc_squeeze R_SHAKE128 outlen c.
(** 549-571: shake256_inc_*. *)
Definition shake256_inc_init : incctx := keccak_inc_init.
Definition shake256_inc_absorb (c : incctx) (m : bytes) : incctx := keccak_inc_absorb R_SHAKE256 c m.
Definition shake256_inc_finalize (c : incctx) : incctx := keccak_inc_finalize R_SHAKE256 31 c.
Definition shake256_inc_squeeze (outlen : nat) (c : incctx) : bytes * incctx := keccak_inc_squeeze R_SHAKE256 outlen c.
(** 585-587, 601-603: shake128_absorb, shake128_squeezeblocks. *)
Definition shake128_absorb (m : bytes) : list Z := keccak_absorb R_SHAKE128 m 31.
Definition shake128_squeezeblocks (nblocks : nat) (s : list Z) : bytes * list Z := keccak_squeezeblocks nblocks R_SHAKE128 s.
(** 625-627, 641-643: shake256_absorb, shake256_squeezeblocks. *)
Definition shake256_absorb (m : bytes) : list Z := keccak_absorb R_SHAKE256 m 31.
Definition shake256_squeezeblocks (nblocks : nat) (s : list Z) : bytes * list Z := keccak_squeezeblocks nblocks R_SHAKE256 s.
(** 664-683: shake128; 695-714: shake256. *)
Definition c_shake (r : nat) (outlen : nat) (m : bytes) : bytes :=
  let nblocks := (outlen / r)%nat in
  let s := keccak_absorb r m 31 in
  let (output, s) := keccak_squeezeblocks nblocks r s in
  let outlen := (outlen - nblocks * r)%nat in
  if (outlen =? 0)%nat then output
  else let (t, _) := keccak_squeezeblocks 1 r s in output ++ firstn outlen t.
Definition c_shake128 (outlen : nat) (m : bytes) : bytes := c_shake R_SHAKE128 outlen m.
Definition c_shake256 (outlen : nat) (m : bytes) : bytes := c_shake R_SHAKE256 outlen m.
(** 716-743, 769-796, 822-849: the incremental SHA3 functions: init and absorb as above, finalize. *)
Definition sha3_inc_finalize (r outlen : nat) (c : incctx) : bytes :=
  let (s, _) := keccak_inc_finalize r 6 c in
  let (t, _) := keccak_squeezeblocks 1 r s in firstn outlen t.
(** 754-767, 807-820, 860-873: sha3_256, sha3_384, sha3_512. *)
Definition c_sha3 (r outlen : nat) (m : bytes) : bytes :=
  let s := keccak_absorb r m 6 in
  let (t, _) := keccak_squeezeblocks 1 r s in firstn outlen t.
Definition c_sha3_256 (m : bytes) : bytes := c_sha3 R_SHA3_256 32 m.
Definition c_sha3_384 (m : bytes) : bytes := c_sha3 R_SHA3_384 48 m.
Definition c_sha3_512 (m : bytes) : bytes := c_sha3 R_SHA3_512 64 m.
