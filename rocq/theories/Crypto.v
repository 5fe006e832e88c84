(** * Crypto: the external primitives latke calls, and the two traits it defines.

    The primitives live outside /repo (crates from crates.io): each is an arbitrary function
    of its inputs to a byte stream, of which the caller takes the documented number of bytes;
    so outputs have the right length and consist of bytes by construction.  Nothing else is
    assumed here; the algebraic laws are separate predicates below, and every theorem that
    needs one says so. *)
From Coq Require Import ZArith List Lia Bool String Ascii.
From Verif Require Import Base.
Import ListNotations.
Open Scope Z_scope.

(** The two signature schemes (id_sigma_r.rs 34-38: [IdSigmaSignatureScheme]). *)
Inductive scheme := Dilithium2 | Ed25519.

Record prims := {
  (* lib.rs 16: Blake2b with 32 bytes of output *)
  p_hash256 : bytes -> rng;
  (* lib.rs 17: Blake2b with 64 bytes of output *)
  p_hash512 : bytes -> rng;
  (* lib.rs 20: HMAC, key then message *)
  p_hmac : bytes -> bytes -> rng;
  (* lib.rs 18: HKDF-expand, pseudorandom key then the concatenated info *)
  p_expand : bytes -> bytes -> rng;
  (* lib.rs 19: HKDF-extract, optional salt then the concatenated key material *)
  p_extract : option bytes -> bytes -> rng;
  (* auth_enc.rs 13: ChaCha20 keystream for a key and a nonce *)
  p_chacha20 : bytes -> bytes -> rng;
  (* latke.rs 9: ChaCha12Rng::from_seed *)
  p_chacha12 : bytes -> rng;
  (* ideal_cipher.rs 4: the Kravatte deck function, key then input *)
  p_deck : bytes -> bytes -> rng;
  (* signatures: key generation from 32 random bytes, signing, verification, and whether a
     byte string of the right length is a valid encoding of a public key *)
  p_sig_pk : scheme -> bytes -> rng;
  p_sig_sk : scheme -> bytes -> rng;
  p_sign : scheme -> bytes -> bytes -> rng;
  p_verify : scheme -> bytes -> bytes -> bytes -> bool;
  p_pk_valid : scheme -> bytes -> bool;
  (* x25519-dalek: public key of a secret, and Diffie-Hellman *)
  p_x_pub : bytes -> rng;
  p_x_dh : bytes -> bytes -> rng
}.

Definition bytes_of (n : nat) (s : rng) : bytes := fst (draw n s).

(** lib.rs 16-20. *)
Definition hash256 (P : prims) (m : bytes) : bytes := bytes_of 32 (p_hash256 P m).
Definition hash512 (P : prims) (m : bytes) : bytes := bytes_of 64 (p_hash512 P m).
Definition hmac (P : prims) (k m : bytes) : bytes := bytes_of 32 (p_hmac P k m).
(** [expand]/[expand_multi_info] into an n-byte buffer; it fails only above 255*32 bytes,
    and no caller asks for more than 96. *)
Definition expand (P : prims) (prk info : bytes) (n : nat) : bytes := bytes_of n (p_expand P prk info).
(** [MyKdf::extract] and [MyKdfExtract::new().input_ikm()...finalize()]: the 32-byte key. *)
Definition extract (P : prims) (salt : option bytes) (ikm : bytes) : bytes :=
  bytes_of 32 (p_extract P salt ikm).
(** [MyKdf::from_prk(prk).unwrap()]: panics when the key is shorter than the hash (32). *)
Definition from_prk (prk : bytes) : outcome bytes :=
  assert_ (32 <=? List.length prk)%nat (Ret prk).

(** Sizes of keys and signatures: ed25519-dalek, and pqcrypto-dilithium ffi.rs. *)
Definition pk_len (s : scheme) : nat := match s with Dilithium2 => 1312 | Ed25519 => 32 end%nat.
Definition sk_len (s : scheme) : nat := match s with Dilithium2 => 2560 | Ed25519 => 32 end%nat.
Definition sig_len (s : scheme) : nat := match s with Dilithium2 => 2420 | Ed25519 => 64 end%nat.

(** Key generation from an rng: both schemes draw 32 bytes (SigningKey::generate;
    KeygenCoins in id_sigma_r.rs 291-293). *)
Definition sig_keygen (P : prims) (s : scheme) (r : rng) : bytes * bytes * rng :=
  let (coins, r1) := draw 32 r in
  (bytes_of (pk_len s) (p_sig_pk P s coins), bytes_of (sk_len s) (p_sig_sk P s coins), r1).
Definition sign (P : prims) (s : scheme) (sk m : bytes) : bytes :=
  bytes_of (sig_len s) (p_sign P s sk m).
Definition verify (P : prims) (s : scheme) (pk m sg : bytes) : bool := p_verify P s pk m sg.
Definition x_pub (P : prims) (sk : bytes) : bytes := bytes_of 32 (p_x_pub P sk).
Definition x_dh (P : prims) (sk pk : bytes) : bytes := bytes_of 32 (p_x_dh P sk pk).

(** Laws of correct primitives. *)
Definition sig_correct (P : prims) (s : scheme) : Prop :=
  forall coins m,
    List.length coins = 32%nat ->
    let pk := bytes_of (pk_len s) (p_sig_pk P s coins) in
    let sk := bytes_of (sk_len s) (p_sig_sk P s coins) in
    verify P s pk m (sign P s sk m) = true /\ p_pk_valid P s pk = true.
Definition dh_commutes (P : prims) : Prop :=
  forall a b, x_dh P a (x_pub P b) = x_dh P b (x_pub P a).

(** The Ristretto group (curve25519-dalek): scalars and points with their operations. *)
Record group := {
  scalar : Type;
  point : Type;
  s_add : scalar -> scalar -> scalar;
  s_mul : scalar -> scalar -> scalar;
  s_wide : bytes -> scalar;                 (* reduction of 64 bytes *)
  g_base : scalar -> point;                 (* RistrettoPoint::mul_base *)
  g_add : point -> point -> point;
  g_mul : point -> scalar -> point;
  g_compress : point -> rng;
  g_decompress : bytes -> option point
}.
(** [Scalar::random]: reduction of 64 random bytes. *)
Definition s_random (G : group) (r : rng) : scalar G * rng :=
  let (b, r1) := draw 64 r in (s_wide G b, r1).
(** [Scalar::from_hash] of a 64-byte hash. *)
Definition s_from_hash (P : prims) (G : group) (m : bytes) : scalar G := s_wide G (hash512 P m).
Definition compress (G : group) (p : point G) : bytes := bytes_of 32 (g_compress G p).
(** [CompressedRistretto::from_slice(b).unwrap().decompress().unwrap()]. *)
Definition decompress (G : group) (b : bytes) : outcome (point G) :=
  assert_ (List.length b =? 32)%nat (unwrap (g_decompress G b)).

(** The group laws: scalars a commutative ring (the part used), points a module over it,
    and the encoding canonical. *)
Record group_laws (G : group) : Prop := {
  gl_sadd_comm : forall a b, s_add G a b = s_add G b a;
  gl_sadd_assoc : forall a b c, s_add G a (s_add G b c) = s_add G (s_add G a b) c;
  gl_smul_comm : forall a b, s_mul G a b = s_mul G b a;
  gl_smul_assoc : forall a b c, s_mul G a (s_mul G b c) = s_mul G (s_mul G a b) c;
  gl_smul_add : forall a b c, s_mul G (s_add G a b) c = s_add G (s_mul G a c) (s_mul G b c);
  gl_base_add : forall a b, g_add G (g_base G a) (g_base G b) = g_base G (s_add G a b);
  gl_base_mul : forall a b, g_mul G (g_base G a) b = g_base G (s_mul G a b);
  gl_decompress : forall p, g_decompress G (compress G p) = Some p;
  gl_canonical : forall b p, List.length b = 32%nat -> g_decompress G b = Some p -> compress G p = b
}.

(** ASCII strings as byte strings. *)
Fixpoint str (s : string) : bytes :=
  match s with
  | EmptyString => []
  | String c r => Z.of_nat (nat_of_ascii c) :: str r
  end.

(** lib.rs 35-39: [PartyRole]. *)
Inductive role := Initiator | Responder.
Definition role_eqb (a b : role) : bool :=
  match a, b with Initiator, Initiator | Responder, Responder => true | _, _ => false end.
(** "The initiator does even steps, the responder does odd steps." *)
Definition first_step (r : role) : nat := match r with Initiator => 0 | Responder => 1 end%nat.

(** lib.rs 41-58: trait [Pake].  [pk_run] takes the operating system's randomness for that
    call (the KEM and CPace crates draw from it themselves). A Rust [Err] keeps the state
    mutated up to the [return]/[?], hence the state in the result. *)
Record pake := {
  PST : Type;
  PERR : Type;
  pk_new : rng -> bytes -> bytes -> role -> outcome (PST * rng);
  pk_run : PST -> rng -> bytes -> outcome (PST * res (option bytes) PERR);
  pk_done : PST -> bool;
  pk_fin : PST -> outcome bytes
}.

(** lib.rs 60-113: trait [IdentityBasedKeyExchange] (with [AsBytes] of the main public key and
    [IdCertificate::id]).  [ik_run] takes the caller's rng and the operating system's, and
    returns what is left of the caller's. *)
Record ibke := {
  MPK : Type; MSK : Type; UPK : Type; USK : Type; CERT : Type; IST : Type; IERR : Type;
  mpk_bytes : MPK -> bytes;
  cert_id : CERT -> bytes;
  gen_main : rng -> MPK * MSK * rng;
  gen_user : rng -> UPK * USK * rng;
  ik_extract : rng -> MSK -> bytes -> UPK -> CERT * rng;
  ik_new : rng -> bytes -> MPK -> CERT -> USK -> role -> IST * rng;
  ik_run : IST -> rng -> rng -> bytes -> outcome (IST * res (option bytes) IERR * rng);
  ik_sim : IST -> outcome (IST * option nat);
  ik_done : IST -> bool;
  ik_fin : IST -> outcome (bytes * bytes)
}.

(* ------------------------------------------------------------------ *)
(** ** Facts *)
Lemma bytes_of_length : forall n s, List.length (bytes_of n s) = n.
Proof. intros. apply draw_length. Qed.
Lemma bytes_of_bytes : forall n s, is_bytes (bytes_of n s).
Proof. intros. apply draw_bytes. Qed.
Lemma bytes_of_ext : forall n s t, (forall i, (i < n)%nat -> u8 (s i) = u8 (t i)) -> bytes_of n s = bytes_of n t.
Proof.
  intros n s t H. unfold bytes_of, draw. cbn [fst]. apply map_ext_in.
  intros i Hi. apply H. apply in_seq in Hi. lia.
Qed.
Lemma hash256_length : forall P m, List.length (hash256 P m) = 32%nat.
Proof. intros. apply bytes_of_length. Qed.
Lemma hmac_length : forall P k m, List.length (hmac P k m) = 32%nat.
Proof. intros. apply bytes_of_length. Qed.
Lemma expand_length : forall P k i n, List.length (expand P k i n) = n.
Proof. intros. apply bytes_of_length. Qed.
Lemma extract_length : forall P s m, List.length (extract P s m) = 32%nat.
Proof. intros. apply bytes_of_length. Qed.
Lemma sign_length : forall P s sk m, List.length (sign P s sk m) = sig_len s.
Proof. intros. apply bytes_of_length. Qed.
Lemma x_pub_length : forall P a, List.length (x_pub P a) = 32%nat.
Proof. intros. apply bytes_of_length. Qed.
Lemma x_dh_length : forall P a b, List.length (x_dh P a b) = 32%nat.
Proof. intros. apply bytes_of_length. Qed.
Lemma compress_length : forall G p, List.length (compress G p) = 32%nat.
Proof. intros. apply bytes_of_length. Qed.
Lemma from_prk_ok : forall k, (32 <= List.length k)%nat -> from_prk k = Ret k.
Proof. intros k H. unfold from_prk. apply Nat.leb_le in H. rewrite H. reflexivity. Qed.
Lemma from_prk_inv : forall k x, from_prk k = Ret x -> x = k /\ (32 <= List.length k)%nat.
Proof.
  intros k x H. unfold from_prk, assert_ in H. destruct (32 <=? List.length k)%nat eqn:E; [|discriminate].
  injection H as <-. apply Nat.leb_le in E. auto.
Qed.
Lemma decompress_compress : forall G p, group_laws G -> decompress G (compress G p) = Ret p.
Proof.
  intros G p L. unfold decompress. rewrite compress_length. cbn [Nat.eqb assert_].
  rewrite gl_decompress by exact L. reflexivity.
Qed.
Lemma decompress_inv : forall G b p, group_laws G -> decompress G b = Ret p -> b = compress G p.
Proof.
  intros G b p L H. unfold decompress, assert_ in H.
  destruct (List.length b =? 32)%nat eqn:E; [|discriminate]. apply Nat.eqb_eq in E.
  destruct (g_decompress G b) eqn:D; [|discriminate]. inversion H; subst.
  symmetry. apply (gl_canonical G L); auto.
Qed.
