# DESIGN — a Rocq model of rozbb/latke-ipake

Read with `properties.jsonl` (the English claims), `MANIFEST.json` (which theorem
proves which claim) and `seeded/LOG.jsonl` (which wrong programs the theorems catch).

## 1. Shape of the model

* Everything executable is a Gallina function, written next to a comment citing the
  file and lines of /repo it models.  `u8`/`u16`/`u64` values are `Z` with explicit
  wrap-around (`mod 2^8`, `mod 2^16`, `mod 2^64`); arrays and slices are `list Z`.
* Panics are values: every function that can panic returns an `outcome`
  (`Ret a` or `Panic`); Rust `Result`s are a separate `result` type inside it, so a
  theorem can distinguish "returns Err" from "aborts".  Session methods take the state
  before the call and return the state after it, *also when they return Err*, because
  Rust keeps the partial mutations made before a `?`.
* Randomness is an explicit byte stream argument; a function that draws n bytes gets
  the first n and passes the rest on.  Theorems quantify over all streams.
* Cryptographic primitives that are not in /repo (ChaCha20, BLAKE2b, HMAC, HKDF, SHA-3,
  SHAKE, Ed25519, X25519, Ristretto, SPAKE2 and CPace crates, Kravatte) are fields of
  records of functions; the algebraic laws needed (signature correctness, DH
  commutativity, group laws, ...) are fields of separate *law* records, so they appear in
  the theorem statements as hypotheses, and each law record is inhabited by a concrete
  toy instance (non-vacuity).  No axioms.

## 2. Property by property
* **C01 Public keys survive serialisation** — Model poly.rs 10-bit codec and the key codec over list Z; proof by bit-extensionality per chunk, lifted by induction over chunks; SaberReload.v states C01-C03 for every value the key types can hold.
* **C02 Encapsulation to a reloaded public key is the same** — Model keygen/enc; proof: to_bytes masks to 10 bits, enc depends on the public vector only mod 2^10 (congruence through the ring product).
* **C03 Decapsulation with a reloaded secret key is the same** — Model 13-bit codec and decapsulate; proof: dec depends on the secret only mod 2^10 (congruence).
* **C04 Deserialisers reject exactly the wrong lengths** — Model from_bytes functions with outcome/result; case analysis on length.
* **C05 IND-CPA decryption recovers the message within the noise bound** — Model keygen/enc/dec with an arbitrary XOF; noise polynomial defined independently over Z; proof by negacyclic ring algebra (anti-periodic sums), then interval reasoning on one coefficient.
* **C06 CCA encapsulation and decapsulation agree** — Compose C05 with the Fujisaki-Okamoto wrapper.
* **C07 Implicit rejection** — u8_eq_mask proved exact for all byte pairs; bytes_eq_mask by induction; the selected key by bitwise identities.
* **C08 Reconciliation hints survive packing** — Positive: bit-extensionality. Negative: exact characterisation of what comes back, plus a concrete counterexample and a concrete wrong decapsulation.
* **C09 Polynomial arithmetic is the ring Z_65536[x]/(x^256+1)** — The double loop of Poly::mul proved equal to the signed convolution; laws via anti-periodic extension.
* **C10 Secret coefficients are centred binomial** — Bitwise specification (sum of testbits) against the masked-add loop.
* **C11 Ciphertexts and keys have the documented size** — Length lemmas through every function.
* **C12 Authenticated encryption round trip** — Stream cipher as XOR with keystream; list lemmas.
* **C13 Authenticated decryption rejects forgeries** — Inversion of auth_decrypt.
* **C14 Authenticated decryption of short input** — Exact panic condition proved (iff length < 44).
* **C15 The wide-block cipher is a length-preserving permutation** — Feistel rounds with arbitrary deck function; XOR involution.
* **C16 EUE is transparent** — Generic over any inner protocol; simulation relation between bare and EUE runs, induction over the number of messages.
* **C17 EUE keys stay in step and are not reused** — Key-schedule as iterated function; induction.
* **C18 EUE unconditionally executes after a bad ciphertext** — Invariant real_mode = true over reachable states; panic on any failed decryption.
* **C19 CAKE agreement** — Cake over the C05 KEM and the C15 cipher.
* **C20 CPace agreement** — Cpace over an abstract CPace crate with its correctness law; RFC 4648 base64 encoder modelled and proved injective.
* **C21 KC-SPAKE2 agreement and key confirmation** — KcSpake2 over abstract SPAKE2 with correctness law.
* **C22 PAKE finalize panics before successful completion** — Invariant over reachable states; counterexample for KcSpake2.
* **C23 ID-SIG-DH agreement** — Model over abstract Ed25519/X25519 with laws; symbolic execution of the honest run.
* **C24 ID-HMQV-C agreement** — Ristretto as an abstract module over scalars with laws; ring-like rewriting.
* **C25 FG-IBKE-C agreement** — Same.
* **C26 ID-SIGMA-R agreement** — Abstract signature scheme + KEM (LightSaber model).
* **C27 Certificates survive encoding** — Codec lemmas.
* **C28 IBKE sessions complete only after all checks passed** — Inductive reachability with arbitrary messages; inversion of each step.
* **C29 IBKE finalize before completion** — Counterexample executions.
* **C30 run_sim predicts message sizes** — Step by step comparison; refutations with exact difference.
* **C31 Simulation completes like the real protocol** — Reachability with run and run_sim.
* **C32 LATKE agreement** — Latke over record-encoded traits; driver loop as fuel-free relation; proved from PAKE/IBKE correctness by simulation.
* **C33 Password files from one password share the main key** — Unfold gen_pwfile.
* **C34 LATKE transcript binding** — Invariant relating the running hash input to the wire trace.
* **C35 LATKE never completes on a bad ciphertext** — Inversion of Latke.run.
* **C36 CHIP agreement** — Group algebra + PAKE correctness.
* **C37 Step discipline** — Reachability invariants.
* **C38 A prespecified peer is the peer that is output** — Counterexample run (a concrete toy instance of all primitives).
* **C39 LATKE completion authenticates the peer** — latke_sim (a LATKE history is a PAKE history followed by an EUE history) composed with C28.
* **C40 CHIP feeds its PAKE the shared points and both messages** — Phase invariant over logs of calls.
* **C41 CHIP retries are consistent** — Counterexample with a PAKE that fails once.
* **C42 CHIP finalize before completion** — From C22 and the phase invariant.
* **C43 Dilithium2 signatures verify** — sign.c, poly.c, polyvec.c, packing.c, rounding.c, reduce.c, ntt.c and symmetric-shake.c of the vendored clean implementation are modelled function by function in an error monad (undefined behaviour, out of fuel). Completeness from the ring facts: use_hint recovers the high part.
* **C44 Dilithium2 arithmetic never overflows** — every C operation that can overflow is checked in the model; interval bounds are propagated through the transforms and loops.
* **C45 Dilithium2 verification accepts exactly the valid signatures** — equivalence of the model with `valid_spec` (DilSpec.v), stated over Z_q[x]/(x^256+1) with naive negacyclic products.
* **C46 Dilithium2 signing is the specified rejection loop** — equivalence with `attempt_spec` and minimality of the attempt number.
* **C47 Dilithium2 key generation is as specified** — equivalence with `keypair_spec`, and uniqueness of what it describes.
* **C48 Dilithium2 signatures have one encoding** — the hint decoder accepts exactly the canonical strings.
* **C49 Dilithium2 signatures do not leak out of range values** — from the rejection conditions.
* **C50 Dilithium2 results depend only on the inputs** — fuel monotonicity; nonce periodicity for the attempt bound.
* **C51 Dilithium2 message binding** — acceptance is split into a part that does not mention the message (it determines w1) and one last hash equation; two accepted messages give two named hash inputs with one hash.
* **C52 The number theoretic transform multiplies polynomials** — the butterfly network evaluates at the 256 roots of x^256+1; interpolation gives the inverse.
* **C53 Dilithium2 wrapper length rules** — the Rust wrapper dilithium2.rs.
* **C54 Dilithium2 samplers stay in range** — and a declarative description of which stream bytes each sampler uses.
* **C55 Dilithium2 byte encodings are exact** — bitwise, chunk by chunk, lifted to polynomials and vectors.
* **C56 Dilithium2 wire formats** — independent specification `bit_packed` (Format.v): bit w k + i of the string is bit i of value k; uniqueness in both directions; equivalence with the parsers and packers.
* **C57 Saber wire formats** — the same specification for the Saber packers; the 3-bit packer's deviation is stated exactly.
* **C58 Saber is the specified function of its random bytes and inputs** — relational specification over integer polynomials and bit-packed strings (head of SaberFull.v), shown equal to the model coefficient by coefficient; the ciphertext specification is proved to determine the ciphertext.
* **C59 Outputs are exactly the documented function of password, ssid and transcript** — per
  protocol, an invariant over arbitrary histories ties the key in the final state to messages in
  the log; the formulas are written over the primitives (PropsKeys.v), not over the model's helpers.
* **C60 SHA-3 and SHAKE are those of FIPS 202, however the calls are cut** — fips202.c modelled statement
  by statement (unrolled rounds, byte-wise incremental absorb, blocks); FIPS 202 written separately at bit
  level (KeccakSpec).  Permutation: each lane of the unrolled double round against theta-rho-pi-chi-iota by
  bit extensionality.  Sponge: a "full blocks + remainder" normal form that absorb calls preserve, padding
  as a byte block, output byte j = byte j mod r of the (j/r + 1)-th permutation.
* **C61 Dilithium2 hashes and samples from the SHAKE streams of what it absorbs** — the hashing functions of
  poly.c/sign.c modelled again on incremental contexts and buffers; invariant "context = state after p
  squeezed bytes"; equality with the stream model, then the theorems of C43-C56 transfer.
* **C62 Post-quantum agreement with the shipped Dilithium2, per run** — `with_dilithium` replaces the
  signature functions of a primitive record by the C model; agreement of one pair of sessions
  (`agrees_at`) from the verification of the four signatures it makes, which C61 gives.
* **C63 The exact panic surface of run, for every PAKE and IBKE** — PropsPanic.v: for every log of calls the step of the
  next call is computed from the number of Ok results; `run = Panic` is proved equivalent to a predicate on that step and
  the bytes of the message (lengths, points, keys). Invariants on the session's options show no other `unwrap` can fail.
* **C64 The exact panic surface of encrypted sessions, LATKE and CHIP** — PropsPanic2.v: composition of C63 with the
  key schedule (LatkeHist.v): a message panics iff it does not open, at the session's position, to one the inner
  session accepts. `hands_over` and `starts` are hypotheses of the generic theorem, proved for all shipped PAKEs and IBKEs.
* **C65 The exact acceptance condition of run, for every PAKE and IBKE** — PropsAccept.v: over the same logs as C63,
  `run` answers Ok iff the message satisfies the authentication predicate of the protocol (IbkeSpec.v) for values that
  are pinned down by the log (own ephemeral key, messages sent and received).
* **C66 The outcome of every call on an encrypted session, refused calls included** — PropsAccept2.v: `opened` relates the
  outer log to an inner one; induction on the log keeps the session at `open_pos`, a function of the numbers of accepted
  and refused calls.
* **C67 Whoever produced the accepted proof is the partner, with the same view** — PropsMatch.v, PropsMatch2.v: exact logs
  (`oks`, the successful calls) of every session by induction over the calls; the string a session signs is read off its
  log (`sigma_signs`, `sig_dh_signs`); equality of the two strings is split field by field (lengths are fixed). No
  assumption on signatures: the theorem speaks of whoever signed the verified string.
* **C68 Equal keys mean equal conversations, and what a wrong ssid does** — PropsBind.v: exact FG-IBKE-C logs; equal keys are
  traced back through expand and extract, with the two concrete inputs named when they collide; the honest FG run is
  executed with two different ssids.
* **C69 LATKE sessions with equal keys are the two sides of one conversation, and each outputs the other's identity** —
  PropsConv.v, PropsConv2.v: every completed session of a shipped PAKE or IBKE has the calls `side who ms` of one message
  list of fixed sizes (`rigid_pake`, `rigid_ibke`, from the exact logs); a completed LATKE session is a merge of a PAKE side
  and a sealed IBKE side (LatkeHist.v), so its transcript is the concatenation of its messages, and equal transcripts with
  equal sizes are equal message by message; the sealed messages open to the same plaintexts under one key.
* **C70 KC-SPAKE2 sessions with one key, or one confirmation tag, are the two sides of one run with one password; CHIP over it
  shares hellos and points** — PropsKc.v: the exact log of a session (`kcx_I`, `kcx_R`) by induction over histories; the
  expanded string is injective once the message and key sizes are fixed (the password is the only part of free length), so
  equal 32-byte segments give equal inputs or the named collision; CHIP's phases (PropsChip.v) embed the PAKE's log, a first
  KC-SPAKE2 call never fails, and `chip_input_injective` splits the PAKE password.
* **C71 CAKE messages fit every password, and a CAKE session is exactly its documented exchange** — PropsCake.v: the wide-block
  cipher is a bijection on byte strings of one length (C15) and the LightSaber key codec a bijection on 672-byte strings (C01);
  the exact log by induction over histories.
* **C72 The AVX2 assembly of Dilithium2 computes the reference transforms** — AvxMachine.v models the vector instructions and
  transcribes ntt.S, invntt.S, shuffle.S (AvxPoint.v: pointwise.S); AvxSym.v/AvxSymOk.v run them on symbolic lanes with a
  soundness theorem, and AvxNtt.v/AvxPoint.v compare the symbolic results with the butterflies of ntt.c.
* **C73 The vector loops, byte shuffles and samplers of the AVX2 build compute the portable functions and stay in bounds** —
  AvxPoly.v (lane by lane), AvxBytes.v (model; out-of-bounds access is `CUB`), AvxBytesOk.v, AvxCodecOk.v, AvxSample.v.
* **C74 Signing does not depend on the processor** — AvxSign.v (model), AvxSignOk.v, AvxSignOk2.v: each attempt of the two loops
  decides alike and writes the same bytes.
* **C75 What the AVX2 build of Dilithium2 verification accepts, and exactly how it differs from the portable build** —
  AvxVerifyOk.v (exact acceptance), AvxSpec.v (over the ring, in the terms of C61's specification; agreement and completeness),
  AvxDiff.v (signatures on which the builds disagree).
* **C76 Machines with and without AVX2 interoperate** — AvxMixed.v: C62's lift with a build chosen per call.
* **C77 The four-way Keccak of the AVX2 build is four SHAKEs** — KeccakX4.v transcribes f1600x4.S and fips202x4.c;
  KeccakX4Ok.v runs the assembly on symbolic 64-bit lanes (soundness theorem) and compares with `StatePermute` of fips202.c, which
  C60 proves to be Keccak-f[1600]; FipsX4Ok.v does absorb and squeeze.
* **C78 Dilithium2 on AVX2 from the hash instructions up** — AvxShake.v (the hashing functions of the AVX2 build with the calls they
  make), AvxShake2.v (equal to the stream versions at the FIPS 202 streams; corollaries).
* **C79 The two-way samplers of the AArch64 build** — A64Sample.v models poly_uniformx2 with its stale buffer; the portable
  sampler and it are compared on six blocks by splitting the scan, and beyond six blocks the result is computed.
* **C80 The NEON assembly of Dilithium2 computes the reference transforms** — A64Machine.v models the NEON instructions over an
  abstract lane type, A64Sym.v runs both programs once on symbolic lanes, A64Rel.v proves that related lanes give related runs (so
  the one symbolic run speaks for all inputs), A64Ntt.v compares with the portable transform.
* **C81 The coefficient-wise NEON assembly of Dilithium2 computes the portable functions** — A64Elem.v, A64Elem2.v (the same
  machine, a second symbolic lane type for element-wise programs), A64T1.v (scalar code of asm_10_to_32).
* **C82 Dilithium2 on AArch64 signs and verifies as the portable build** — A64Sign.v (models), A64SignOk.v, A64SignOk2.v
  (equality: transforms agree modulo q, everything that reaches the output is a standard representative or has passed a norm
  check), A64Props.v (definedness, completeness, concrete cases).
* **C83 The two-way Keccak of the AArch64 build is two SHAKEs** — A64Keccak.v transcribes the round programs of fips202x2.c and
  of feat.S over two-lane registers and runs one round symbolically for each; A64Fips.v models absorbing and squeezing with their
  over-reads and proves each lane equal to fips202.c, hence to FIPS 202 (C60).
* **C84 Dilithium2 on AArch64 from its hash instructions up** — A64Shake.v models the samplers and sign.c again with the calls the C
  code makes, uninitialised bytes included, and proves them equal to A64Sign's at the streams of FIPS 202; the rest follows from C82 and
  C61, C77.
* **C85 Key generation on AArch64 is the portable key generation** — A64Keypair.v models crypto_sign_keypair of that build over the
  operations of A64Sign.v; t before power2round is equal modulo q by evaluation at the roots and equal because both are reduced.
* **C86 Key generation on AVX2 is the portable key generation** — AvxEta.v models rej_eta_avx (nibbles by shift and mask, comparison
  masks, compaction by the table of byte indices, mulhrs reduction) and poly_uniform_eta_4x over the four-way SHAKE; AvxKeypair.v models
  crypto_sign_keypair. The sampler is shown to accept the nibbles the portable one accepts, in order; t is equal as in C85, with a
  tighter bound on the inverse transform so that adding s2 stays in the range of caddq.
* **C87 Signatures and keys move between processors** — AllBuilds.v: one dispatch over the three builds; composed from C72-C86.
* **C88 LATKE over KC-SPAKE2: one session key, one password, one pair of identities** — PropsKc2.v composes C69 and C70: the PAKE
  session inside a completed LATKE session is a history of the PAKE machine; equal PAKE keys give equal PAKE inputs, and the PAKE input
  is an injective encoding of the main public key and the identities.
* **C89 What an accepted MAC of FG-IBKE-C proves** — PropsFg2.v, from the exact logs of PropsBind.v: the MACs are thirds of one expansion of
  the encodings of the two points, and compression is injective.
* **C90 A Dilithium2 signature belongs to one key and one message on every processor** — AllBuilds2.v: each of the three verifiers ends in a
  comparison of the first 32 bytes with a hash; the hash chain is peeled from there.
* **C91 Post-quantum LATKE works between machines of all kinds** — AllMixed.v: a Dilithium2 that picks one of the three builds per call is a
  correct implementation in the sense of C62; the run that returns on the portable build returns on every choice.
* **C92 Signed messages on every build, with the wrapper's buffers** — AllOpen.v: an allocation is a list of written or unwritten bytes; stores
  outside it and loads of unwritten bytes are undefined; the copy loops, the C signer or verifier of each build and set_len
  are composed as in dilithium2.rs and shown to be the list functions of C43/C53. The detached forms of C53 on every build are there too.

Concrete cases that meet the hypotheses of the theorems stand beside them as `Example`s; those that need
several modules at once are in `Meets.v` (C16–C18, C27, C34, C35: a forged ciphertext, certificates and
certificate files of two users, a LATKE run that reaches its encryption phase) and `Meets2.v` (C52, C55,
C56, C72, C73, C80, C81: ramp polynomials within the bounds, a well-formed and a malformed hint section,
register files with arbitrary contents).

## 3. Trusted base
* Coq 8.16.1's kernel (the bytecode VM is used by some `vm_compute` proofs; `coqchk`, which has no VM,
  rechecks every module) and the reading of the definitions cited below as models of the source.
* `Print Assumptions` prints "Closed under the global context" for every theorem of MANIFEST.json:
  no axiom is used by any proof (`validation/assumptions.py` checks it).  `coqchk` mentions seven
  axioms of `Coq.ssr.ssrunder` because ssreflect's prelude is loaded by a library in the import
  closure; no theorem depends on them.
* Laws of primitives that are not in /repo appear as hypotheses in the statements (law records
  of Crypto.v and Ring.v), never as axioms; each is met by a toy instance.

### Modelled
| source | theory files |
|---|---|
| saber-rust: poly.rs, generic.rs, params.rs, newtype.rs, non_generic.rs, lightsaber.rs, saber.rs, firesaber.rs | Saber*.v |
| latke: auth_enc.rs, ideal_cipher.rs, lib.rs helpers | Symmetric.v |
| latke: eue_transform.rs and the protocol drivers | Driver.v, Eue.v |
| latke: pake/cake.rs, cpace.rs, kc_spake2.rs | Pakes.v |
| latke: ibke/id_sig_dh.rs, id_hmqv_c.rs, fg_ibke.rs, id_sigma_r.rs | Ibkes.v |
| latke: latke.rs, chip.rs | Latke.v, Chip.v |
| pqcrypto-dilithium: dilithium2 clean C sources, the Rust wrapper dilithium2.rs | Dil*.v |
| pqcrypto-dilithium: dilithium2 avx2 sources used by keypair, sign, verify and open (ntt.S, invntt.S, pointwise.S, shuffle.S, consts.c, poly.c, polyvec.c, rounding.c, rejsample.c, sign.c, f1600x4.S, fips202x4.c) | Avx*.v, KeccakX4*.v, FipsX4Ok.v |
| pqcrypto-dilithium: dilithium2 aarch64 sources used by keypair, sign, verify and open (__asm_NTT.S, __asm_iNTT.S, __asm_poly.S, NTT_params.h, poly.c, polyvec.c, packing.c, sign.c, symmetric-shake.c, fips202x2.c, feat.S) | A64*.v, AllBuilds.v |
| pqcrypto-internals: fips202.c | Keccak.v |

### Not modelled
* ChaCha20, BLAKE2b, HMAC, HKDF, the RustCrypto SHA-3/SHAKE used by saber-rust, Ed25519, X25519,
  Ristretto, the spake2/cpace crates and Kravatte: arbitrary functions (with law records where a law is
  needed).
* Memory layout, zeroisation, timing (constant-time claims are not expressible in this model), the OS
  random generator (an arbitrary byte stream), serde, benches, asm_poly_add/sub/shiftl of AArch64 (not called), Dilithium3/5 and the other pqcrypto crates.
* Termination of rejection samplers on particular hash streams: runs have explicit fuel; theorems speak
  about every run that finishes, and more fuel never changes a finished run.

### Validation outside Coq
`validation/dilithium_kat.py` extracts the Dilithium2 model on top of the fips202.c model (DilShake2.v, nothing
replaced) to OCaml in a temporary directory, runs PQClean's NIST known-answer case on it and compares the
SHA-256 of the transcript with the one the repository publishes (META.yml `nistkat-sha256`): they agree.
It is a test of the model's fidelity, not part of any proof.  The repository has no known-answer file for
Saber.
