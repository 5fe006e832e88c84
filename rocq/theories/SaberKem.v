(** * SaberKem: model of saber-rust/src/generic.rs, the three parameter sets
    (lightsaber.rs, saber.rs, firesaber.rs), params.rs, newtype.rs and the public wrappers
    of non_generic.rs. *)
From Coq Require Import ZArith List String.
From Verif Require Import Base SaberPoly.
Import ListNotations.
Open Scope Z_scope.

(** The hash functions used by the crate, as arbitrary functions to byte streams: SHAKE128
    (an XOF), SHA3-256 and SHA3-512 (the first 32, 64 bytes of the stream).  Every theorem
    quantifies over all of them. *)
Record saber_prims := {
  shake128 : bytes -> rng;
  sha3_256_stream : bytes -> rng;
  sha3_512_stream : bytes -> rng
}.
Definition sha3_256 (h : saber_prims) (x : bytes) : bytes := fst (draw 32 (sha3_256_stream h x)).
Definition sha3_512 (h : saber_prims) (x : bytes) : bytes := fst (draw 64 (sha3_512_stream h x)).

(** generic.rs 290-330: the associated constants and functions of [trait SaberImpl] that
    differ between parameter sets. [cbd_block] is the number of XOF bytes read for 4
    coefficients, [cbd_coeffs] the body of the cbd loop. *)
Record saber_impl := {
  sK : nat;
  sMU : nat;
  sRECON : Z;
  recon_pack : poly -> bytes;
  recon_unpack : bytes -> poly;
  cbd_block : nat;
  cbd_coeffs : bytes -> list Z
}.

(** generic.rs 345-351: [load_littleendian]. *)
Definition load_littleendian (b : bytes) : Z :=
  fst (fold_left (fun '(r, idx) x => (r .| u64 (Z.shiftl x (8 * idx)), idx + 1)) b (0, 0)).

(** lightsaber.rs 69-72, saber.rs 69-72, firesaber.rs 69-72: sum of the masked shifts. *)
Definition cbd_sum (mask : Z) (nbytes : nat) (t : Z) : Z :=
  fold_left (fun d idx => u64 (d + ((t >> Z.of_nat idx) .& mask))) (seq 0 nbytes) 0.

(** lightsaber.rs 64-89: four LightSaber coefficients from 5 bytes. *)
Definition cbd_light (buf : bytes) : list Z :=
  let t := load_littleendian buf in
  let d := cbd_sum 35468117025 (List.length buf) t in
  let a0 := u16 (d .& 31) in
  let b0 := u16 ((d >> 5) .& 31) in
  let a1 := u16 ((d >> 10) .& 31) in
  let b1 := u16 ((d >> 15) .& 31) in
  let a2 := u16 ((d >> 20) .& 31) in
  let b2 := u16 ((d >> 25) .& 31) in
  let a3 := u16 ((d >> 30) .& 31) in
  let b3 := u16 (d >> 35) in
  [ u16 (a0 - b0); u16 (a1 - b1); u16 (a2 - b2); u16 (a3 - b3) ].

(** saber.rs 64-89: four Saber coefficients from 4 bytes. *)
Definition cbd_saber (buf : bytes) : list Z :=
  let t := load_littleendian buf in
  let d := cbd_sum 286331153 (List.length buf) t in
  let a0 := u16 (d .& 15) in
  let b0 := u16 ((d >> 4) .& 15) in
  let a1 := u16 ((d >> 8) .& 15) in
  let b1 := u16 ((d >> 12) .& 15) in
  let a2 := u16 ((d >> 16) .& 15) in
  let b2 := u16 ((d >> 20) .& 15) in
  let a3 := u16 ((d >> 24) .& 15) in
  let b3 := u16 (d >> 28) in
  [ u16 (a0 - b0); u16 (a1 - b1); u16 (a2 - b2); u16 (a3 - b3) ].

(** firesaber.rs 64-89: four FireSaber coefficients from 3 bytes. *)
Definition cbd_fire (buf : bytes) : list Z :=
  let t := load_littleendian buf in
  let d := cbd_sum 2396745 (List.length buf) t in
  let a0 := u16 (d .& 7) in
  let b0 := u16 ((d >> 3) .& 7) in
  let a1 := u16 ((d >> 6) .& 7) in
  let b1 := u16 ((d >> 9) .& 7) in
  let a2 := u16 ((d >> 12) .& 7) in
  let b2 := u16 ((d >> 15) .& 7) in
  let a3 := u16 ((d >> 18) .& 7) in
  let b3 := u16 ((d >> 21) .& 7) in
  [ u16 (a0 - b0); u16 (a1 - b1); u16 (a2 - b2); u16 (a3 - b3) ].

(** lightsaber.rs 30-60: [LightSaber]. *)
Definition LightSaber : saber_impl := {|
  sK := 2; sMU := 10; sRECON := 2;
  recon_pack := read_bytes_3bit; recon_unpack := from_bytes_3bit;
  cbd_block := 5; cbd_coeffs := cbd_light |}.
(** saber.rs 30-60: [Saber]. *)
Definition Saber : saber_impl := {|
  sK := 3; sMU := 8; sRECON := 3;
  recon_pack := read_bytes_4bit; recon_unpack := from_bytes_4bit;
  cbd_block := 4; cbd_coeffs := cbd_saber |}.
(** firesaber.rs 30-60: [FireSaber]. *)
Definition FireSaber : saber_impl := {|
  sK := 4; sMU := 6; sRECON := 5;
  recon_pack := read_bytes_6bit; recon_unpack := from_bytes_6bit;
  cbd_block := 3; cbd_coeffs := cbd_fire |}.

(** params.rs 34-49: sizes. *)
Definition POLYVECCOMPRESSEDBYTES (I : saber_impl) : nat := (sK I * (DEG * 10) / 8)%nat.
Definition INDCPA_PUBLICKEYBYTES (I : saber_impl) : nat := (POLYVECCOMPRESSEDBYTES I + SEEDBYTES)%nat.
Definition INDCPA_SECRETKEYBYTES (I : saber_impl) : nat := (sK I * 13 * DEG / 8)%nat.
Definition PUBLIC_KEY_BYTES (I : saber_impl) : nat := INDCPA_PUBLICKEYBYTES I.
Definition SECRET_KEY_BYTES (I : saber_impl) : nat :=
  (INDCPA_SECRETKEYBYTES I + INDCPA_PUBLICKEYBYTES I + HASHBYTES + KEYBYTES)%nat.
Definition RECONBYTES_KEM (I : saber_impl) : nat := ((Z.to_nat (sRECON I) + 1) * DEG / 8)%nat.
Definition BYTES_CCA_DEC (I : saber_impl) : nat := (POLYVECCOMPRESSEDBYTES I + RECONBYTES_KEM I)%nat.

(** ** Vectors and matrices *)
Notation vec := (list poly).      (* [Vector]: non_generic.rs 234-249, an array of K polys *)
Notation matrix := (list vec).    (* [Matrix]: non_generic.rs 209-232, an array of K vectors *)

(** Writing decoded chunks over [Vector::default()] (zip stops at the shorter side). *)
Definition fill_vec (K : nat) (l : list poly) : vec := firstn K (l ++ repeat pzero K).

(** generic.rs 16-27: [Vector::from_bytes_mod_q]. *)
Definition from_bytes_mod_q (I : saber_impl) (b : bytes) : vec :=
  fill_vec (sK I) (map from_bytes_13bit (chunks_exact (13 * 256 / 8) b)).
(** generic.rs 29-40: [Vector::from_bytes_mod_p]. *)
Definition from_bytes_mod_p (I : saber_impl) (b : bytes) : vec :=
  fill_vec (sK I) (map from_bytes_10bit (chunks_exact (10 * 256 / 8) b)).
(** generic.rs 42-52: [Vector::read_mod_q]. *)
Definition read_mod_q (v : vec) : bytes := flat_map read_bytes_13bit v.
(** generic.rs 54-64: [Vector::read_mod_p]. *)
Definition read_mod_p (v : vec) : bytes := flat_map read_bytes_10bit v.
(** generic.rs 66-73: [Vector::add_vec]. *)
Definition add_vec (a b : vec) : vec := map2 padd a b.
(** generic.rs 75-82: [Vector::add_u16]. *)
Definition vadd_c (v : vec) (c : Z) : vec := map (fun p => padd_c p c) v.
(** generic.rs 84-90: [Vector::shr]. *)
Definition vshr (v : vec) (k : Z) : vec := map (fun p => pshr p k) v.
(** generic.rs 92-101: [Vector::mul]. *)
Definition vmul (a b : vec) : poly :=
  fold_left (fun acc '(x, y) => padd acc (pmul x y)) (combine a b) pzero.
(** generic.rs 111-120: [Matrix::mul]. *)
Definition mat_mul (m : matrix) (v : vec) : vec := map (fun row => vmul row v) m.
(** generic.rs 122-134: [Matrix::mul_transpose]: result[i] accumulates m[j][i] * v[j]. *)
Definition mat_mul_transpose (m : matrix) (v : vec) : vec :=
  map (fun i =>
    fold_left (fun acc j => padd acc (pmul (nth i (nth j m []) []) (nth j v [])))
      (seq 0 (List.length m)) pzero)
    (seq 0 (List.length m)).

(** ** Sampling *)
(** Repeat a reader k times, threading the XOF. *)
Fixpoint read_many {A} (k : nat) (rd : rng -> A * rng) (x : rng) : list A * rng :=
  match k with
  | O => ([], x)
  | S k' => let (a, x1) := rd x in
            let (l, x2) := read_many k' rd x1 in (a :: l, x2)
  end.

(** lightsaber.rs 62-91 (and the same in saber.rs, firesaber.rs): [cbd]: 64 blocks, each
    giving 4 coefficients. *)
Definition cbd (I : saber_impl) (x : rng) : poly * rng :=
  let (bs, x') := read_many (DEG / 4) (draw (cbd_block I)) x in
  (flat_map (cbd_coeffs I) bs, x').

(** generic.rs 332-343: [gen_secret]. *)
Definition gen_secret (h : saber_prims) (I : saber_impl) (seed : bytes) : vec :=
  fst (read_many (sK I) (cbd I) (shake128 h seed)).

(** generic.rs 353-369: [gen_matrix]. *)
Definition read_poly (x : rng) : poly * rng :=
  let (buf, x') := draw (13 * DEG / 8) x in (from_bytes_13bit buf, x').
Definition gen_matrix (h : saber_prims) (I : saber_impl) (seed : bytes) : matrix :=
  fst (read_many (sK I) (read_many (sK I) read_poly) (shake128 h seed)).

(** ** Reconciliation *)
(** generic.rs 371-376: [recon_data_gen]. *)
Definition recon_data_gen (I : saber_impl) (p : poly) : bytes :=
  recon_pack I (pshr (reduce P p) (EPS_P - sRECON I - 1)).

(** generic.rs 387-397: one coefficient of [recon]. *)
Definition recon_coeff (I : saber_impl) (recbit coeff : Z) : Z :=
  let c0 := EPS_P - sRECON I - 1 in
  let c1 := Z.shiftl 1 (EPS_P - 2) - Z.shiftl 1 (EPS_P - 2 - sRECON I) in
  let temp := shl16 recbit c0 in
  let temp := u16 (u16 (coeff - temp) + c1) in
  (temp >> (EPS_P - 1)) .& 1.
(** generic.rs 378-400: [recon]. *)
Definition recon (I : saber_impl) (rec : bytes) (p : poly) : poly :=
  map2 (recon_coeff I) (recon_unpack I rec) p.

(** ** Keys *)
(** non_generic.rs 140-145: [INDCPAPublicKey]; [PublicKey] (3-8) is a wrapper around it and
    is identified with it. *)
Record pk_cpa := { pk_vec : vec; pk_seed : bytes }.
(** non_generic.rs 187-191: [INDCPASecretKey]. *)
Record sk_cpa := { sk_vec : vec }.
(** non_generic.rs 68-75: [SecretKey]. *)
Record secret_key := {
  sk_z : bytes; sk_hash_pk : bytes; sk_pk_cca : pk_cpa; sk_sk_cpa : sk_cpa }.
(** non_generic.rs 112-116: [SecretKey::public_key]. *)
Definition public_key (sk : secret_key) : pk_cpa := sk_pk_cca sk.

(** lib.rs 120-135: [Error]. *)
Inductive saber_error :=
| BadLength (name : string) (actual expected : nat).

(** generic.rs 142-149: [INDCPAPublicKey::to_bytes]; also [PublicKey::to_bytes]
    (non_generic.rs 19-27). *)
Definition pk_to_bytes (pk : pk_cpa) : bytes := read_mod_p (pk_vec pk) ++ pk_seed pk.

(** generic.rs 151-158: [INDCPAPublicKey::from_bytes].  [split_at] panics when the slice is
    too short and [copy_from_slice] when the seed part does not have 32 bytes. *)
Definition indcpa_pk_from_bytes (I : saber_impl) (b : bytes) : outcome pk_cpa :=
  let! (v, s) := split_at (POLYVECCOMPRESSEDBYTES I) b in
  assert_ (List.length s =? SEEDBYTES)%nat
    (Ret {| pk_vec := from_bytes_mod_p I v; pk_seed := s |}).

(** generic.rs 202-213: [PublicKey::from_bytes]. *)
Definition pk_from_bytes (I : saber_impl) (b : bytes) : outcome (res pk_cpa saber_error) :=
  if (List.length b =? PUBLIC_KEY_BYTES I)%nat then
    let! pk := indcpa_pk_from_bytes I b in Ret (Ok pk)
  else Ret (Err (BadLength "bytes" (List.length b) (PUBLIC_KEY_BYTES I))).

(** generic.rs 168-173: [INDCPASecretKey::to_bytes]. *)
Definition indcpa_sk_to_bytes (sk : sk_cpa) : bytes := read_mod_q (sk_vec sk).

(** generic.rs 175-185: [INDCPASecretKey::from_bytes]. *)
Definition indcpa_sk_from_bytes (I : saber_impl) (b : bytes) : res sk_cpa saber_error :=
  if (List.length b =? INDCPA_SECRETKEYBYTES I)%nat
  then Ok {| sk_vec := from_bytes_mod_q I b |}
  else Err (BadLength "bytes" (List.length b) (INDCPA_SECRETKEYBYTES I)).

(** generic.rs 249-261: [SecretKey::to_bytes]. *)
Definition sk_to_bytes (sk : secret_key) : bytes :=
  indcpa_sk_to_bytes (sk_sk_cpa sk) ++ pk_to_bytes (sk_pk_cca sk) ++ sk_hash_pk sk ++ sk_z sk.

(** generic.rs 267-287: [SecretKey::from_bytes]. *)
Definition sk_from_bytes (I : saber_impl) (b : bytes) : outcome (res secret_key saber_error) :=
  if (List.length b =? SECRET_KEY_BYTES I)%nat then
    let! (sk_b, rest) := split_at (INDCPA_SECRETKEYBYTES I) b in
    let! (pk_b, rest) := split_at (PUBLIC_KEY_BYTES I) rest in
    let! (h_b, z_b) := split_at HASHBYTES rest in
    match indcpa_sk_from_bytes I sk_b with
    | Err e => Ret (Err e)
    | Ok sk =>
      let! r := pk_from_bytes I pk_b in
      match r with
      | Err e => Ret (Err e)
      | Ok pk =>
        assert_ (List.length h_b =? HASHBYTES)%nat
        (assert_ (List.length z_b =? KEYBYTES)%nat
          (Ret (Ok {| sk_z := z_b; sk_hash_pk := h_b; sk_pk_cca := pk; sk_sk_cpa := sk |})))
      end
    end
  else Ret (Err (BadLength "bytes" (List.length b) (SECRET_KEY_BYTES I))).

(** newtype.rs 58-71: [from_bytes] of a byte-array newtype (Ciphertext, SharedSecret,
    PublicKeyBytes, SecretKeyBytes ...). *)
Definition newtype_from_bytes (name : string) (len : nat) (b : bytes) : outcome (res bytes saber_error) :=
  if negb (List.length b =? len)%nat then Ret (Err (BadLength name (List.length b) len))
  else assert_ (List.length b =? len)%nat (Ret (Ok b)).
Definition ciphertext_from_bytes (I : saber_impl) := newtype_from_bytes "Ciphertext" (BYTES_CCA_DEC I).
Definition shared_secret_from_bytes := newtype_from_bytes "SharedSecret" KEYBYTES.

(** ** IND-CPA encryption *)
(** generic.rs 416-433: [indcpa_kem_keypair_deterministic]. *)
Definition indcpa_keypair (h : saber_prims) (I : saber_impl) (seed noiseseed : bytes)
  : pk_cpa * sk_cpa :=
  let a := gen_matrix h I seed in
  let s := gen_secret h I noiseseed in
  let b := vshr (vadd_c (mat_mul a s) 4) 3 in
  ({| pk_vec := b; pk_seed := seed |}, {| sk_vec := s |}).

(** generic.rs 404-411: [indcpa_kem_keypair] (keygen_ind_cpa, non_generic.rs 270-272). *)
Definition keygen_ind_cpa (h : saber_prims) (I : saber_impl) (r : rng) : pk_cpa * sk_cpa * rng :=
  let (seed, r1) := draw SEEDBYTES r in
  let (noiseseed, r2) := draw COINBYTES r1 in
  (indcpa_keypair h I seed noiseseed, r2).

(** generic.rs 436-480: [indcpa_kem_enc]. *)
Definition indcpa_enc (h : saber_prims) (I : saber_impl) (m noiseseed : bytes) (pk : pk_cpa) : bytes :=
  let a := gen_matrix h I (pk_seed pk) in
  let s' := gen_secret h I noiseseed in
  let b' := vshr (vadd_c (mat_mul_transpose a s') 4) 3 in
  let ct := read_mod_p b' in
  let pol_p := vmul (pk_vec pk) s' in
  let m_p := padd (from_msg m) pol_p in
  let rec := recon_data_gen I m_p in
  ct ++ rec.

(** generic.rs 483-507: [indcpa_kem_dec]. The ciphertext type has the exact length, so
    [split_at] cannot panic. *)
Definition indcpa_dec (I : saber_impl) (sk : sk_cpa) (ciphertext : bytes) : bytes :=
  let ct := firstn (POLYVECCOMPRESSEDBYTES I) ciphertext in
  let rec := skipn (POLYVECCOMPRESSEDBYTES I) ciphertext in
  let b := from_bytes_mod_p I ct in
  let v1 := vmul b (sk_vec sk) in
  read_bytes_msg (recon I rec v1).

(** ** KEM *)
(** generic.rs 515-525: [keygen]. *)
Definition keygen (h : saber_prims) (I : saber_impl) (r : rng) : secret_key * rng :=
  let '(pk, sk, r1) := keygen_ind_cpa h I r in
  let hash_pk := sha3_256 h (pk_to_bytes pk) in
  let (z, r2) := draw KEYBYTES r1 in
  ({| sk_z := z; sk_hash_pk := hash_pk; sk_pk_cca := pk; sk_sk_cpa := sk |}, r2).

(** generic.rs 527-543: [encapsulate] for the drawn message [m]. *)
Definition encaps_m (h : saber_prims) (I : saber_impl) (m : bytes) (pk : pk_cpa) : bytes * bytes :=
  let hash_pk := sha3_256 h (pk_to_bytes pk) in
  let kr := sha3_512 h (hash_pk ++ m) in
  let r := firstn KEYBYTES kr in
  let ct := indcpa_enc h I m r pk in
  let kr' := sha3_256 h ct ++ skipn KEYBYTES kr in
  (sha3_256 h kr', ct).
Definition encapsulate (h : saber_prims) (I : saber_impl) (r : rng) (pk : pk_cpa)
  : bytes * bytes * rng :=
  let (m, r1) := draw KEYBYTES r in (encaps_m h I m pk, r1).

(** generic.rs 545-554: [encapsulate_ind_cpa]. *)
Definition encapsulate_ind_cpa (h : saber_prims) (I : saber_impl) (r : rng) (pk : pk_cpa)
  : bytes * bytes * rng :=
  let (m, r1) := draw KEYBYTES r in
  let (rr, r2) := draw KEYBYTES r1 in
  (m, indcpa_enc h I m rr pk, r2).

(** generic.rs 633-637: [u8_eq_mask]; negation and subtraction wrap. *)
Definition u8_eq_mask (x y : Z) : Z :=
  let z := Z.lxor x y in
  let z := z .| u8 (- z) in
  u8 ((z >> 7) - 1).
(** generic.rs 600-607: [bytes_eq_mask]. *)
Definition bytes_eq_mask (a b : bytes) : Z :=
  fold_left (fun acc '(x, y) => acc .& u8_eq_mask x y) (combine a b) 255.

(** generic.rs 577-580: constant-time selection of one byte; [!fail] is bitwise not. *)
Definition select_byte (fail rb zb : Z) : Z := (rb .& Z.lxor fail 255) .| (zb .& fail).

(** generic.rs 556-586: [decapsulate]. *)
Definition decapsulate (h : saber_prims) (I : saber_impl) (ct : bytes) (sk : secret_key) : bytes :=
  let m := indcpa_dec I (sk_sk_cpa sk) ct in
  let kr := sha3_512 h (sk_hash_pk sk ++ m) in
  let r := firstn KEYBYTES kr in
  let k := skipn KEYBYTES kr in
  let ct_check := indcpa_enc h I m r (sk_pk_cca sk) in
  let fail := Z.lxor 255 (bytes_eq_mask ct_check ct) in
  let r' := sha3_256 h ct_check in
  sha3_256 h (map2 (select_byte fail) r' (sk_z sk) ++ k).

(** generic.rs 588-593: [decapsulate_ind_cpa]. *)
Definition decapsulate_ind_cpa (I : saber_impl) (ct : bytes) (sk : sk_cpa) : bytes :=
  indcpa_dec I sk ct.
