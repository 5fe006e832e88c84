{"id": "C01", "title": "Public keys survive serialisation", "statement": "For each Saber parameter set, PublicKey::from_bytes(pk.to_bytes()) succeeds, and to_bytes of the reloaded key is the same byte string; conversely, for every byte string b of PUBLIC_KEY_BYTES bytes, from_bytes(b) succeeds and to_bytes gives back exactly b.", "quantifier": "every public key value (any 16-bit coefficients, any 32-byte seed) and every byte string of the right length, for LightSaber, Saber and FireSaber", "why_tests_cant": "2^(8*672) or more byte strings; a test samples a handful.", "anchors": ["saber-rust/src/generic.rs: INDCPAPublicKey::to_bytes, INDCPAPublicKey::from_bytes, PublicKey::from_bytes", "saber-rust/src/poly.rs: from_bytes_10bit, read_bytes_10bit"]}
{"id": "C02", "title": "Encapsulation to a reloaded public key is the same", "statement": "With the same randomness, encapsulating (both the CCA and the IND-CPA flavour) to a public key that went through to_bytes/from_bytes gives the same ciphertext and the same shared secret as encapsulating to the key returned by keygen, even though the in-memory key differs (keygen keeps unreduced 13-bit coefficients).", "quantifier": "every keypair seed, noise seed, message, and every XOF/hash behaviour, all three parameter sets", "why_tests_cant": "The two in-memory keys differ in most coefficients; equality of the resulting bytes is a modular-arithmetic fact about all coefficients.", "anchors": ["saber-rust/src/generic.rs: indcpa_kem_enc, encapsulate, encapsulate_ind_cpa, INDCPAPublicKey", "saber-rust/src/lightsaber.rs", "saber-rust/src/saber.rs", "saber-rust/src/firesaber.rs"]}
{"id": "C03", "title": "Decapsulation with a reloaded secret key is the same", "statement": "SecretKey::from_bytes(sk.to_bytes()) succeeds and decapsulating any ciphertext with the reloaded key returns the same shared secret as with the original key (negative secret coefficients are stored as 13-bit residues and not sign-extended on load).", "quantifier": "every secret key value, every ciphertext of the right length, all three parameter sets", "why_tests_cant": "Ranges over all secret keys and all ciphertexts, including invalid ones.", "anchors": ["saber-rust/src/generic.rs: SecretKey::to_bytes, SecretKey::from_bytes, decapsulate, indcpa_kem_dec", "saber-rust/src/poly.rs: from_bytes_13bit, read_bytes_13bit"]}
{"id": "C04", "title": "Deserialisers reject exactly the wrong lengths", "statement": "PublicKey::from_bytes, SecretKey::from_bytes, Ciphertext::from_bytes and SharedSecret::from_bytes return Ok for a byte string if and only if its length is the documented constant; otherwise they return BadLength carrying the actual and the expected length. They never panic.", "quantifier": "every byte string of every length, all three parameter sets", "why_tests_cant": "Unbounded set of lengths and contents.", "anchors": ["saber-rust/src/newtype.rs: __byte_array_newtype_impl", "saber-rust/src/generic.rs: PublicKey::from_bytes, SecretKey::from_bytes, INDCPASecretKey::from_bytes"]}
{"id": "C05", "title": "IND-CPA decryption recovers the message within the noise bound", "statement": "If every coefficient of the accumulated rounding noise is at most the reconciliation margin, then decapsulate_ind_cpa of the ciphertext made by encapsulate_ind_cpa returns exactly the encapsulated secret. The margins are those of the Saber specification for Saber and FireSaber; for LightSaber coefficients with index 5 mod 8 the margin is smaller because of C08.", "quantifier": "every seed, noise seed and message, every XOF behaviour, all three parameter sets", "why_tests_cant": "Quantifies over all matrices, secrets and messages; failures have probability about 2^-18 or smaller so sampling is inconclusive.", "anchors": ["saber-rust/src/generic.rs: indcpa_kem_keypair_deterministic, indcpa_kem_enc, indcpa_kem_dec, recon, recon_data_gen"]}
{"id": "C06", "title": "CCA encapsulation and decapsulation agree", "statement": "If the noise bound holds for the derived randomness, decapsulate(ct, sk) returns the shared secret that encapsulate(sk.public_key()) returned with ct, also when the public key or the secret key went through serialisation first.", "quantifier": "every key generation randomness, every encapsulation randomness, every hash and XOF behaviour, all three parameter sets", "why_tests_cant": "Depends on all random inputs and on re-encryption being byte exact.", "anchors": ["saber-rust/src/generic.rs: keygen, encapsulate, decapsulate"]}
{"id": "C07", "title": "Implicit rejection", "statement": "decapsulate never fails: for every ciphertext of the right length it returns 32 bytes. If re-encrypting the decrypted message does not reproduce the ciphertext in every byte, the result is SHA3-256(z || k) with the secret key's z and the key-confirmation half k of the message hash; if it does, it is SHA3-256(SHA3-256(ct) || k).", "quantifier": "every ciphertext, every secret key, every hash behaviour", "why_tests_cant": "Any single differing byte must trigger rejection; there are 256^736 ciphertexts.", "anchors": ["saber-rust/src/generic.rs: decapsulate, bytes_eq_mask, u8_eq_mask"]}
{"id": "C08", "title": "Reconciliation hints survive packing", "statement": "Packing the reconciliation hint polynomial of a ciphertext and unpacking it returns the same hint coefficients. Holds for Saber (4 bit) and FireSaber (6 bit); REFUTED for LightSaber (3 bit): the packer writes bit 2 instead of bit 0 of every coefficient whose index is 5 mod 8.", "quantifier": "every hint polynomial", "why_tests_cant": "The failing case flips a decrypted message bit only when the noise is large, so the repository's tests pass.", "anchors": ["saber-rust/src/poly.rs: read_bytes_3bit, from_bytes_3bit, read_bytes_4bit, from_bytes_4bit, read_bytes_6bit, from_bytes_6bit", "README.md"]}
{"id": "C09", "title": "Polynomial arithmetic is the ring Z_65536[x]/(x^256+1)", "statement": "The polynomial product computed by the library is the product of polynomials modulo x^256+1 with coefficients modulo 2^16: coefficient k is the signed sum of all a_i*b_j with i+j = k (plus) or i+j = k+256 (minus). It is commutative, associative and distributes over addition; and for every matrix A and vectors s, t, (A s).t = s.(A^T t).", "quantifier": "all polynomials, vectors and matrices", "why_tests_cant": "Algebraic laws over 2^4096 polynomials.", "anchors": ["saber-rust/src/poly.rs: Add, Sub, Mul for Poly", "saber-rust/src/generic.rs: Vector::mul, Matrix::mul, Matrix::mul_transpose"]}
{"id": "C10", "title": "Secret coefficients are centred binomial", "statement": "Every coefficient of a sampled secret is popcount(first mu/2 bits) - popcount(next mu/2 bits) of its own block of mu XOF bits, hence lies in [-mu/2, mu/2]; blocks are consumed in order without overlap.", "quantifier": "every XOF output", "why_tests_cant": "All 2^40 five byte blocks for LightSaber.", "anchors": ["saber-rust/src/lightsaber.rs: cbd", "saber-rust/src/saber.rs: cbd", "saber-rust/src/firesaber.rs: cbd", "saber-rust/src/generic.rs: gen_secret, load_littleendian"]}
{"id": "C11", "title": "Ciphertexts and keys have the documented size", "statement": "Every ciphertext, public key and secret key produced by the API has exactly BYTES_CCA_DEC, PUBLIC_KEY_BYTES and SECRET_KEY_BYTES bytes (736/672/1568, 1088/992/2304, 1472/1312/3040), every element is a byte, and every shared secret has 32 bytes.", "quantifier": "all inputs, all parameter sets", "why_tests_cant": "Needs every path and every coefficient, not a sample.", "anchors": ["saber-rust/src/params.rs: __generate_params", "saber-rust/src/generic.rs: indcpa_kem_enc, encapsulate, decapsulate"]}
{"id": "C12", "title": "Authenticated encryption round trip", "statement": "auth_decrypt(key, auth_encrypt(rng, key, msg)) = Ok(msg), and the ciphertext is exactly 44 bytes longer than the message.", "quantifier": "every key, nonce and message of any length, every stream cipher and MAC", "why_tests_cant": "Unbounded message lengths.", "anchors": ["latke/src/auth_enc.rs: auth_encrypt, auth_decrypt"]}
{"id": "C13", "title": "Authenticated decryption rejects forgeries", "statement": "If auth_decrypt returns Ok on a byte string c then c = body || tag where tag is the MAC of the whole body under the second key half. In particular if c differs from an honest ciphertext c0 only outside the tag, acceptance implies a MAC collision, and if it differs only in the tag it is rejected.", "quantifier": "every key and every byte string", "why_tests_cant": "Quantifies over all forgeries.", "anchors": ["latke/src/auth_enc.rs: auth_decrypt"]}
{"id": "C14", "title": "Authenticated decryption of short input", "statement": "auth_decrypt returns a Result for every input (a caller expects Err for truncated input). REFUTED: it panics exactly when the input is shorter than 44 bytes.", "quantifier": "every byte string", "why_tests_cant": "Needs all lengths and contents.", "anchors": ["latke/src/auth_enc.rs: auth_decrypt"]}
{"id": "C15", "title": "The wide-block cipher is a length-preserving permutation", "statement": "For every key, wide_block_decrypt undoes wide_block_encrypt and vice versa on every block of at least 32 bytes, lengths are preserved, distinct plaintexts have distinct ciphertexts, and shorter blocks panic.", "quantifier": "every key, every deck function, every block of any length", "why_tests_cant": "Bijectivity over unboundedly long blocks.", "anchors": ["latke/src/ideal_cipher.rs: wide_block_encrypt, wide_block_decrypt, eval_deck, xor_in_place"]}
{"id": "C16", "title": "EUE is transparent", "statement": "Running an identity-based key exchange inside EUE with the same initial key and ssid on both sides, with honest delivery, makes both inner sessions see exactly the messages of the bare protocol, so the results (messages sent or not, done flags, errors, final id and key) are those of the bare protocol run, for any number of messages.", "quantifier": "every inner protocol, every number of rounds, every initial key, ssid and randomness", "why_tests_cant": "Unbounded protocol length and any inner protocol.", "anchors": ["latke/src/eue_transform.rs: Eue::new_session, Eue::run, Eue::finalize"]}
{"id": "C17", "title": "EUE keys stay in step and are not reused", "statement": "After any number of honestly delivered messages, the sender's encryption key for message n and the receiver's decryption key for message n are the same, and message n uses the n-th key of the ratchet chain: each message uses a new position of the chain.", "quantifier": "every message number and both roles", "why_tests_cant": "Induction over unbounded message sequences.", "anchors": ["latke/src/eue_transform.rs: Eue::ratchet_keys, Eue::run"]}
{"id": "C18", "title": "EUE unconditionally executes after a bad ciphertext", "statement": "The module documentation promises that when an incoming ciphertext does not decrypt, the session silently leaves real mode and keeps sending ciphertexts of zeros. REFUTED: an assert panics on any decryption failure, and no reachable state is out of real mode.", "quantifier": "every incoming byte string in every reachable state", "why_tests_cant": "All reachable states and all inputs.", "anchors": ["latke/src/eue_transform.rs: Eue::run"]}
{"id": "C19", "title": "CAKE agreement", "statement": "Two Cake sessions with the same password and ssid and opposite roles, run against each other with honest delivery, both complete after two messages and finalize to the same key, provided the KEM decapsulates correctly for the sampled randomness.", "quantifier": "every password, ssid and randomness", "why_tests_cant": "All passwords of any length, ssids and KEM randomness.", "anchors": ["latke/src/pake/cake.rs: Cake::new, Cake::run, Cake::finalize"]}
{"id": "C20", "title": "CPace agreement", "statement": "Two Cpace sessions with the same password bytes and ssid and opposite roles agree on the key after two messages; the base64 transport encoding of passwords is injective, so distinct passwords are distinct CPace passwords.", "quantifier": "every password, ssid and randomness", "why_tests_cant": "All passwords.", "anchors": ["latke/src/pake/cpace.rs: Cpace::new, Cpace::run, Cpace::finalize"]}
{"id": "C21", "title": "KC-SPAKE2 agreement and key confirmation", "statement": "Two KcSpake2 sessions with equal password and ssid and opposite roles complete after three messages with the same key. A session completes only if the MAC it received equals the one it derived, so wrong or altered MACs give Err and the session never becomes done by that call.", "quantifier": "every password, ssid, randomness and every incoming message", "why_tests_cant": "All adversarial messages.", "anchors": ["latke/src/pake/kc_spake2.rs: KcSpake2::new, KcSpake2::run, KcSpake2::finalize"]}
{"id": "C22", "title": "PAKE finalize panics before successful completion", "statement": "Trait documentation: finalize returns the session key if the protocol successfully completed and panics otherwise. Holds for Cake and Cpace in every reachable state; REFUTED for KcSpake2, which returns a key after its first receive, before or despite a failed MAC check.", "quantifier": "every reachable session state under arbitrary incoming messages", "why_tests_cant": "All message histories.", "anchors": ["latke/src/lib.rs: Pake::finalize", "latke/src/pake/kc_spake2.rs: KcSpake2::run, KcSpake2::finalize", "latke/src/pake/cake.rs", "latke/src/pake/cpace.rs"]}
{"id": "C23", "title": "ID-SIG-DH agreement", "statement": "Two IdSigDh sessions with certificates extracted under the same main key, with the same ssid and opposite roles and honest delivery complete and agree on the key, and each outputs the other's certified id.", "quantifier": "all ids, keys, ssids and randomness", "why_tests_cant": "All randomness; relies on group laws.", "anchors": ["latke/src/ibke/id_sig_dh.rs"]}
{"id": "C24", "title": "ID-HMQV-C agreement", "statement": "Same for IdHmqvC: honest runs complete, agree on the key and output each other's id.", "quantifier": "all ids, keys, ssids and randomness", "why_tests_cant": "Depends on the HMQV algebra holding for all scalars.", "anchors": ["latke/src/ibke/id_hmqv_c.rs"]}
{"id": "C25", "title": "FG-IBKE-C agreement", "statement": "Same for FgIbkeC: honest runs complete, agree on the key and output each other's id.", "quantifier": "all ids, keys, ssids and randomness", "why_tests_cant": "Depends on group algebra holding for all scalars.", "anchors": ["latke/src/ibke/fg_ibke.rs"]}
{"id": "C26", "title": "ID-SIGMA-R agreement", "statement": "Same for IdSigmaR with Ed25519 and with Dilithium2: honest runs complete, agree on the key and output each other's id, provided the KEM decapsulates correctly.", "quantifier": "all ids, keys, ssids, nonces and randomness", "why_tests_cant": "All randomness.", "anchors": ["latke/src/ibke/id_sigma_r.rs"]}
{"id": "C27", "title": "Certificates survive encoding", "statement": "Decoding an encoded certificate or user public key gives back the certificate; decoding never accepts wrong-length input as a certificate (it panics or errors), and an accepted certificate verifies under the main public key over id and public key.", "quantifier": "all certificates and all byte strings", "why_tests_cant": "All byte strings.", "anchors": ["latke/src/ibke/id_sig_dh.rs", "latke/src/ibke/id_sigma_r.rs", "latke/src/ibke/id_hmqv_c.rs"]}
{"id": "C28", "title": "IBKE sessions complete only after all checks passed", "statement": "Under arbitrary incoming messages, a session whose is_done is true received a message whose certificate verified under its main public key and whose key confirmation (signature or MAC) verified over the session's own transcript; the id it outputs is the id in that certificate.", "quantifier": "every reachable state under arbitrary incoming messages, each IBKE", "why_tests_cant": "Adversarial histories.", "anchors": ["latke/src/ibke/id_sig_dh.rs", "latke/src/ibke/id_hmqv_c.rs", "latke/src/ibke/fg_ibke.rs", "latke/src/ibke/id_sigma_r.rs"]}
{"id": "C29", "title": "IBKE finalize before completion", "statement": "finalize returns an id and key only for a completed session. REFUTED for protocols that store output before verification: after a failed verification, finalize returns an unauthenticated id and key.", "quantifier": "every reachable session state", "why_tests_cant": "All message histories.", "anchors": ["latke/src/ibke/id_sigma_r.rs: run, finalize", "latke/src/ibke/id_hmqv_c.rs", "latke/src/ibke/fg_ibke.rs", "latke/src/ibke/id_sig_dh.rs"]}
{"id": "C30", "title": "run_sim predicts message sizes", "statement": "In every state, run_sim returns the size of the message an honest run would send at that step (None if none). Proved for IdSigDh and IdHmqvC; REFUTED for IdSigmaR (two messages are 12 bytes short: the nonce of the encryption is not counted) and FgIbkeC (panics: unimplemented).", "quantifier": "every state and step of each IBKE", "why_tests_cant": "Certificates and states of all contents.", "anchors": ["latke/src/lib.rs: IdentityBasedKeyExchange::run_sim", "latke/src/ibke/id_sig_dh.rs: run_sim", "latke/src/ibke/id_hmqv_c.rs: run_sim", "latke/src/ibke/fg_ibke.rs: run_sim", "latke/src/ibke/id_sigma_r.rs: run_sim"]}
{"id": "C31", "title": "Simulation completes like the real protocol", "statement": "is_done becomes true after the last run or run_sim. Proved for the protocols that set it; REFUTED for IdHmqvC whose run_sim never sets it.", "quantifier": "every interleaving of run and run_sim", "why_tests_cant": "All mixed histories.", "anchors": ["latke/src/lib.rs: IdentityBasedKeyExchange::is_done", "latke/src/ibke/id_hmqv_c.rs: run_sim", "latke/src/ibke/id_sigma_r.rs: run_sim", "latke/src/ibke/id_sig_dh.rs: run_sim"]}
{"id": "C32", "title": "LATKE agreement", "statement": "For every IBKE and PAKE that are correct, two Latke sessions whose password files were generated from the same password, with the same ssid, opposite roles and matching peer models, driven by the alternating loop with honest delivery, terminate, agree on the session key and output each other's id; in particular for each IBKE/PAKE pair shipped in the repository.", "quantifier": "every password, ids, ssid, randomness, both peer models, every correct PAKE and IBKE with any number of messages", "why_tests_cant": "Generic in both protocols and unbounded in rounds.", "anchors": ["latke/src/latke.rs: Latke::gen_pwfile, Latke::new_session, Latke::run, Latke::finalize"]}
{"id": "C33", "title": "Password files from one password share the main key", "statement": "gen_pwfile calls with the same password give the same main public key whatever the randomness and id, the certificate carries the given id, and the certificate verifies under that main key.", "quantifier": "every password, id and randomness", "why_tests_cant": "All randomness.", "anchors": ["latke/src/latke.rs: Latke::gen_pwfile"]}
{"id": "C34", "title": "LATKE transcript binding", "statement": "The session key is the KDF of the exact concatenation of all non-empty messages received and sent by the session, in order, followed by the inner session key; the transcript equals what travelled on the wire.", "quantifier": "every reachable state under arbitrary incoming messages", "why_tests_cant": "All histories.", "anchors": ["latke/src/latke.rs: Latke::run, Latke::finalize"]}
{"id": "C35", "title": "LATKE never completes on a bad ciphertext", "statement": "If the encrypted key exchange receives a non-empty message that does not authenticate under the current message key, run panics and the session does not complete; errors of the PAKE or the IBKE are never turned into a completed session.", "quantifier": "every incoming message in every reachable state", "why_tests_cant": "All adversarial messages.", "anchors": ["latke/src/latke.rs: Latke::run", "latke/src/eue_transform.rs: Eue::run"]}
{"id": "C36", "title": "CHIP agreement", "statement": "Two Chip sessions with password files from the same password, each knowing the other's id, same ssid and opposite roles, agree on the final key for every correct PAKE.", "quantifier": "every password, ids, ssid, randomness and correct PAKE", "why_tests_cant": "Group algebra for all scalars; any PAKE.", "anchors": ["latke/src/chip.rs: Chip::gen_pwfile, Chip::new_session, Chip::run, Chip::finalize"]}
{"id": "C37", "title": "Step discipline", "statement": "Under arbitrary incoming messages, an initiator only ever executes even steps and a responder odd steps, each successful run advances by exactly one own step, an error leaves the step unchanged, and running a completed session panics.", "quantifier": "every reachable state, every PAKE and IBKE", "why_tests_cant": "All histories.", "anchors": ["latke/src/pake/cake.rs: run", "latke/src/pake/cpace.rs: run", "latke/src/pake/kc_spake2.rs: run", "latke/src/ibke/id_sig_dh.rs: run", "latke/src/ibke/id_hmqv_c.rs: run", "latke/src/ibke/fg_ibke.rs: run", "latke/src/ibke/id_sigma_r.rs: run"]}
{"id": "C38", "title": "A prespecified peer is the peer that is output", "statement": "A LATKE session created with the peer model PreSpecified(id) that completes outputs that id. REFUTED: the id is only hashed into the PAKE input and never compared with the id the inner IBKE authenticated, so a password-file owner of another identity who feeds the expected id to the PAKE makes the session complete and output that other identity.", "quantifier": "every completed session with peer model PreSpecified", "why_tests_cant": "Requires a malicious peer that deviates from the protocol.", "anchors": ["latke/src/latke.rs: Latke::new_session, Latke::run, Latke::finalize, PeerModel"]}
{"id": "C39", "title": "LATKE completion authenticates the peer", "statement": "Whatever the peer sends, a LATKE session that completes did so through its PAKE and its inner IBKE: the inner session completed on exactly the plaintexts that the received ciphertexts authenticated to under message keys derived from the PAKE key, and so the id it outputs carries a verified certificate and a verified key confirmation under the main public key of the session's own password file.", "quantifier": "every reachable state under arbitrary incoming messages, each IBKE and every PAKE", "why_tests_cant": "All adversarial histories.", "anchors": ["latke/src/latke.rs: Latke::run, Latke::finalize", "latke/src/eue_transform.rs: Eue::run"]}
{"id": "C40", "title": "CHIP feeds its PAKE the shared points and both messages", "statement": "Whatever the peer sends, the PAKE of a CHIP session is created with the session id and an input that is the concatenation of the two Diffie-Hellman points computed from a well-formed first message of the peer and of both first messages in the order sent; two such inputs are equal only if points and messages are; a malformed first message makes run panic before a PAKE exists.", "quantifier": "every history of incoming messages, both roles, every PAKE", "why_tests_cant": "All adversarial histories.", "anchors": ["latke/src/chip.rs: Chip::run, Chip::ibke_step_2"]}
{"id": "C41", "title": "CHIP retries are consistent", "statement": "When a call that creates the PAKE fails and the caller runs the session again with another message, the PAKE input's transcript contains the message the shared points were computed from. REFUTED: the transcript keeps the first message received, while the points use the new one. With the three PAKEs of the repository the call that creates the PAKE never returns an error, so there the input is always made of the message the points were computed from.", "quantifier": "every history with a failed PAKE creation", "why_tests_cant": "Needs error histories and a PAKE that fails in its first call.", "anchors": ["latke/src/chip.rs: Chip::run, Chip::ibke_step_2"]}
{"id": "C42", "title": "CHIP finalize before completion", "statement": "finalize panics before the protocol successfully completes (its documentation). It does so until the PAKE exists, and for every PAKE whose own finalize is guarded; REFUTED for the pairing with KcSpake2, where a responder returns a key after two calls, before any key confirmation.", "quantifier": "every history of incoming messages", "why_tests_cant": "All histories.", "anchors": ["latke/src/chip.rs: Chip::finalize", "latke/src/pake/kc_spake2.rs: finalize"]}
{"id": "C43", "title": "Dilithium2 signatures verify", "statement": "Whenever key generation from a seed returns (pk, sk) and signing a message with sk returns a signature, verification of that signature and message with pk accepts; the combined sign/open interface returns the message.", "quantifier": "every 32-byte seed, every message of every length, every extendable-output function in place of SHAKE, every number of rejected attempts", "why_tests_cant": "Completeness rests on norm bounds that hold for every coefficient of every product; tests sample a few seeds.", "anchors": ["pqcrypto/pqclean/crypto_sign/dilithium2/clean/sign.c: crypto_sign_keypair_det, crypto_sign_signature, crypto_sign_verify, crypto_sign, crypto_sign_open", "pqcrypto/pqclean/crypto_sign/dilithium2/clean/rounding.c", "pqcrypto/pqcrypto-dilithium/src/dilithium2.rs: keypair, detached_sign, verify_detached_signature, sign, open"]}
{"id": "C44", "title": "Dilithium2 arithmetic never overflows", "statement": "Key generation, signing with any 2560-byte secret key and verification of any byte string as a signature with any 1312-byte public key never execute a signed overflow, an out-of-range shift or an out-of-bounds access.", "quantifier": "every seed, message, secret key (also not produced by key generation), public key and signature bytes", "why_tests_cant": "Undefined behaviour on adversarial input is not visible to tests.", "anchors": ["pqcrypto/pqclean/crypto_sign/dilithium2/clean/ntt.c", "pqcrypto/pqclean/crypto_sign/dilithium2/clean/reduce.c", "pqcrypto/pqclean/crypto_sign/dilithium2/clean/poly.c", "pqcrypto/pqclean/crypto_sign/dilithium2/clean/rounding.c", "pqcrypto/pqclean/crypto_sign/dilithium2/clean/packing.c", "pqcrypto/pqclean/crypto_sign/dilithium2/clean/sign.c"]}
{"id": "C45", "title": "Dilithium2 verification accepts exactly the valid signatures", "statement": "Verification returns success if and only if the signature has 2420 bytes and decodes to (c, z, h) with canonical hint encoding, every coefficient of z is below gamma1 - beta in absolute value, and c is the hash of the message representative and of the high parts, repaired with h, of A z - c t1 2^13 computed in Z_q[x]/(x^256+1).", "quantifier": "every byte string offered as signature, every message, every 1312-byte public key", "why_tests_cant": "All adversarial signatures, including those near norm and encoding boundaries.", "anchors": ["pqcrypto/pqclean/crypto_sign/dilithium2/clean/sign.c: crypto_sign_verify", "pqcrypto/pqclean/crypto_sign/dilithium2/clean/packing.c: unpack_sig, unpack_pk", "pqcrypto/pqclean/crypto_sign/dilithium2/clean/rounding.c: use_hint"]}
{"id": "C46", "title": "Dilithium2 signing is the specified rejection loop", "statement": "Signing returns the signature of the first mask number whose attempt passes all four rejection checks (norm of z, norm of w0 - c s2, norm of c t0, number of hints), where an attempt is the specification's computation over Z_q[x]/(x^256+1), and every earlier attempt violates one of the checks.", "quantifier": "every 2560-byte secret key, every message, every extendable-output function", "why_tests_cant": "Quantifies over all keys and all attempt histories.", "anchors": ["pqcrypto/pqclean/crypto_sign/dilithium2/clean/sign.c: crypto_sign_signature", "pqcrypto/pqclean/crypto_sign/dilithium2/clean/rounding.c: decompose, make_hint"]}
{"id": "C47", "title": "Dilithium2 key generation is as specified", "statement": "Key generation returns (pk, sk) if and only if they encode: the public seed, small secrets sampled from the expanded seed, and the two parts of t = A s1 + s2 with t1 2^13 + t0 = t mod q and t0 in (-2^12, 2^12]; keys have 1312 and 2560 bytes and decode to these components.", "quantifier": "every seed and extendable-output function", "why_tests_cant": "A statement about all coefficients for all seeds.", "anchors": ["pqcrypto/pqclean/crypto_sign/dilithium2/clean/sign.c: crypto_sign_keypair_det", "pqcrypto/pqclean/crypto_sign/dilithium2/clean/packing.c: pack_pk, pack_sk, unpack_pk, unpack_sk", "pqcrypto/pqclean/crypto_sign/dilithium2/clean/rounding.c: power2round"]}
{"id": "C48", "title": "Dilithium2 signatures have one encoding", "statement": "Two different 2420-byte strings never decode to the same signature components, and re-encoding the components of a decodable signature gives the same bytes; hints decode only when positions are strictly increasing, counts are non-decreasing and at most 80, and unused positions are zero.", "quantifier": "every pair of 2420-byte strings", "why_tests_cant": "Strong unforgeability depends on it for every input.", "anchors": ["pqcrypto/pqclean/crypto_sign/dilithium2/clean/packing.c: pack_sig, unpack_sig"]}
{"id": "C49", "title": "Dilithium2 signatures do not leak out of range values", "statement": "Every signature that signing returns has 2420 bytes, z coefficients below gamma1 - beta in absolute value and at most 80 hint bits.", "quantifier": "every 2560-byte secret key and message", "why_tests_cant": "The security argument needs the bound for every signature.", "anchors": ["pqcrypto/pqclean/crypto_sign/dilithium2/clean/sign.c: crypto_sign_signature", "pqcrypto/pqclean/crypto_sign/dilithium2/clean/poly.c: poly_chknorm"]}
{"id": "C50", "title": "Dilithium2 results depend only on the inputs", "statement": "Signing is deterministic, verification is deterministic, and the signer either returns within 16384 attempts or never returns because the 16-bit nonce repeats the masks.", "quantifier": "every key, message and number of attempts", "why_tests_cant": "Termination and determinism over unbounded loops.", "anchors": ["pqcrypto/pqclean/crypto_sign/dilithium2/clean/sign.c: crypto_sign_signature", "pqcrypto/pqclean/crypto_sign/dilithium2/clean/polyvec.c: polyvecl_uniform_gamma1"]}
{"id": "C51", "title": "Dilithium2 message binding", "statement": "If one signature verifies for two different messages m and m' under one public key with hash tr, then SHAKE256 collides on two named inputs: on tr||m and tr||m' (64 bytes of output), or else on mu||w1 and mu'||w1 (32 bytes, the first 32 of the signature), where mu, mu' are the hashes of those inputs and w1 is the one value that the verifier recomputes from the signature and the key, whatever the message. A signature accepted for m is accepted for m' exactly when the hashes of mu||w1 and mu'||w1 agree.", "quantifier": "every signature, key and pair of messages", "why_tests_cant": "A reduction over all inputs.", "anchors": ["pqcrypto/pqclean/crypto_sign/dilithium2/clean/sign.c: crypto_sign_verify"]}
{"id": "C52", "title": "The number theoretic transform multiplies polynomials", "statement": "Transforming two polynomials, multiplying pointwise in Montgomery form and transforming back gives, modulo q, their product in Z[x]/(x^256+1), without overflow for every input in the range the callers use; the transform has an inverse, and the product of a challenge with a polynomial bounded by B is bounded by 39 B.", "quantifier": "every pair of polynomials within the documented bounds", "why_tests_cant": "8-level butterfly network over all inputs.", "anchors": ["pqcrypto/pqclean/crypto_sign/dilithium2/clean/ntt.c: ntt, invntt_tomont", "pqcrypto/pqclean/crypto_sign/dilithium2/clean/poly.c: poly_pointwise_montgomery", "pqcrypto/pqclean/crypto_sign/dilithium2/clean/reduce.c: montgomery_reduce, reduce32, caddq"]}
{"id": "C53", "title": "Dilithium2 wrapper length rules", "statement": "DetachedSignature::from_bytes accepts exactly the strings of at most 2420 bytes and as_bytes gives back the same bytes; a shorter detached signature parses but never verifies; public and secret keys are accepted at exactly their length; open accepts exactly a verifying 2420-byte signature followed by the message.", "quantifier": "every byte string", "why_tests_cant": "All lengths and contents.", "anchors": ["pqcrypto/pqcrypto-dilithium/src/dilithium2.rs: DetachedSignature, PublicKey::from_bytes, SecretKey::from_bytes, open, verify_detached_signature", "pqcrypto/pqclean/crypto_sign/dilithium2/clean/sign.c: crypto_sign_open"]}
{"id": "C54", "title": "Dilithium2 samplers stay in range", "statement": "Whatever bytes the extendable-output function yields, uniform sampling gives coefficients in [0, q), secret sampling in [-2, 2], mask sampling in (-2^17, 2^17], and a challenge has exactly 39 coefficients that are 1 or -1 and is 0 elsewhere.", "quantifier": "every output stream of the extendable-output function", "why_tests_cant": "Rejection samplers over all streams.", "anchors": ["pqcrypto/pqclean/crypto_sign/dilithium2/clean/poly.c: poly_uniform, poly_uniform_eta, poly_uniform_gamma1, poly_challenge"]}
{"id": "C55", "title": "Dilithium2 byte encodings are exact", "statement": "Each coefficient packer (t1, t0, eta, z, w1) followed by its unpacker is the identity on the range it is used for, lengths are as documented, and unpacked values are in range for every byte string.", "quantifier": "every polynomial in range and every byte string of the right length", "why_tests_cant": "Bit-level codecs over all inputs.", "anchors": ["pqcrypto/pqclean/crypto_sign/dilithium2/clean/poly.c: polyt1_pack, polyt1_unpack, polyt0_pack, polyt0_unpack, polyeta_pack, polyeta_unpack, polyz_pack, polyz_unpack, polyw1_pack", "pqcrypto/pqclean/crypto_sign/dilithium2/clean/packing.c"]}
{"id": "C56", "title": "Dilithium2 wire formats", "statement": "Public keys, secret keys and signatures are exactly: the seeds and hashes at fixed offsets, followed by the coefficients (as t1, 2 - s, 4096 - t0, 2^17 - z) written as consecutive little-endian fields of 10, 3, 13 and 18 bits, and the hint as ascending positions, zero padding and running totals; parsing succeeds exactly on strings of that form and returns these values.", "quantifier": "every byte string of the right length and every vector in range", "why_tests_cant": "Byte-level interoperability over all keys and signatures; a bug applied to both encoder and decoder passes round-trip tests.", "anchors": ["pqcrypto/pqclean/crypto_sign/dilithium2/clean/packing.c: pack_pk, unpack_pk, pack_sk, unpack_sk, pack_sig, unpack_sig", "pqcrypto/pqclean/crypto_sign/dilithium2/clean/poly.c: polyeta_pack, polyt1_pack, polyt0_pack, polyz_pack, polyw1_pack"]}
{"id": "C57", "title": "Saber wire formats", "statement": "Saber polynomials and vectors are serialised as consecutive little-endian fields of 13, 10, 6, 4 or 3 bits per coefficient and parsed the same way; the one exception is the 3-bit hint encoder of LightSaber, which in every coefficient 8j+5 writes the high bit where the format has the low bit.", "quantifier": "every polynomial and every byte string of the right length", "why_tests_cant": "Byte-level interoperability over all inputs; round-trip tests do not see a consistent error.", "anchors": ["saber-rust/src/poly.rs: from_bytes_13bit, read_bytes_13bit, from_bytes_10bit, read_bytes_10bit, read_bytes_6bit, read_bytes_4bit, read_bytes_3bit", "saber-rust/src/generic.rs: read_mod_q, read_mod_p"]}
{"id": "C58", "title": "Saber is the specified function of its random bytes and inputs", "statement": "Key generation, encapsulation and decapsulation are exactly the Saber functions over integer polynomials modulo x^256 + 1: the matrix is the 13-bit expansion of the seed, secrets are centred binomial samples, the public key and the first ciphertext part are A s and A^T s' rounded to 10 bits, the hint is the top bits of m + <b, s'>, decryption recovers each message bit from <b', s> and the hint, and seeds, coins and the shared secret are drawn from the random stream and hashed in the documented order.  The only deviation is LightSaber's hint encoder.", "quantifier": "every random stream, hash function, public key, secret key and ciphertext", "why_tests_cant": "An error made consistently on both sides (a wrong constant, transposed matrix, different sampling order) passes every round-trip test.", "anchors": ["saber-rust/src/generic.rs: gen_matrix, gen_secret, indcpa_kem_keypair, indcpa_kem_enc, indcpa_kem_dec, keygen, encapsulate, recon_data_gen, recon", "saber-rust/src/lightsaber.rs: cbd", "saber-rust/src/saber.rs: cbd", "saber-rust/src/firesaber.rs: cbd"]}
{"id": "C59", "title": "Outputs are exactly the documented function of password, ssid and transcript", "statement": "Each session key, message and certificate is exactly the documented composition of the primitives: the wide-block cipher is the four documented Feistel rounds, the authenticated encryption is ChaCha20 under the first half of the key and HMAC under the second half over ciphertext and nonce, CAKE encrypts the KEM key and ciphertext under HKDF of the password with direction byte and ssid, CPace feeds base64 of the password, the two protocol identities and the ssid to the crate, ID-SIG-DH, ID-HMQV-C, FG-IBKE-C and ID-SIGMA-R derive their key from the stated Diffie-Hellman values, hashes, labels, ssid and transcript of the messages the session really sent and accepted, and certificates and password files sign or hash id and key as stated.", "quantifier": "every history of calls with arbitrary messages and randomness that ends in a completed session", "why_tests_cant": "A label, field or ssid dropped on both sides passes every agreement test and silently loses the binding.", "anchors": ["latke/src/ideal_cipher.rs", "latke/src/auth_enc.rs", "latke/src/pake/cake.rs", "latke/src/pake/cpace.rs", "latke/src/ibke/id_sig_dh.rs", "latke/src/ibke/id_hmqv_c.rs", "latke/src/ibke/fg_ibke.rs", "latke/src/ibke/id_sigma_r.rs", "latke/src/chip.rs"]}
{"id": "C60", "title": "SHA-3 and SHAKE are those of FIPS 202, however the calls are cut", "statement": "shake128, shake256, sha3_256, sha3_384 and sha3_512 return, for every message and output length, exactly the bits that FIPS 202 defines; the incremental interface returns the same bytes for every way of cutting the message into absorb calls and the output into squeeze calls (empty pieces and pieces crossing block boundaries included), and the block interface returns consecutive blocks of the same stream.", "quantifier": "every message, every output length, every list of absorb chunks, every list of squeeze sizes", "why_tests_cant": "Test vectors exercise a few lengths and single calls; an error at one block or byte offset, or in one lane of the unrolled permutation for rare inputs, is not met.", "anchors": ["pqcrypto/pqcrypto-internals/cfiles/fips202.c: KeccakF1600_StatePermute, keccak_absorb, keccak_squeezeblocks, keccak_inc_absorb, keccak_inc_finalize, keccak_inc_squeeze, shake128, shake256, sha3_256, sha3_384, sha3_512"]}
{"id": "C61", "title": "Dilithium2 hashes and samples from the SHAKE streams of what it absorbs", "statement": "Key generation, signing and verification, run on the incremental SHAKE contexts and refill buffers of the C code, are the Dilithium2 functions instantiated with the SHAKE128 and SHAKE256 of FIPS 202: the matrix, secrets, masks, challenges and message hashes are drawn from consecutive bytes of the stream of seed and nonce (or of the concatenated inputs), no byte is skipped or used twice at a buffer refill; so with these hash functions every signature made with a generated key verifies, exactly the signatures the scheme calls valid are accepted, and a signature accepted for two messages is a SHAKE256 collision between the two named inputs of C51.", "quantifier": "every seed, message, key, signature, and every number of refills", "why_tests_cant": "Refills of the sampling buffers are rare (probability about 2^-30 or less for some) and the stream positions range over all seeds; known-answer tests never reach them.", "anchors": ["pqcrypto/pqclean/crypto_sign/dilithium2/clean/symmetric-shake.c", "pqcrypto/pqclean/crypto_sign/dilithium2/clean/symmetric.h", "pqcrypto/pqclean/crypto_sign/dilithium2/clean/poly.c: poly_uniform, poly_uniform_eta, poly_uniform_gamma1, poly_challenge", "pqcrypto/pqclean/crypto_sign/dilithium2/clean/sign.c: crypto_sign_keypair_det, crypto_sign_signature, crypto_sign_verify", "pqcrypto/pqcrypto-internals/cfiles/fips202.c"]}
{"id": "C62", "title": "Post-quantum agreement with the shipped Dilithium2, per run", "statement": "With the Dilithium2 C code of the repository as the signature scheme, two ID-SIGMA-R sessions of users enrolled under one main key agree in four messages, and two post-quantum LATKE sessions (CAKE and ID-SIGMA-R) with the same password agree in seven calls, each obtaining the other's id and the same 32-byte key, whenever the three key generations and the four signatures of that very run return and LightSaber decrypts; nothing else is assumed of the signatures. A message that authenticates an id to such a session carries two signatures that the C verifier accepts and that satisfy Dilithium's verification equation.", "quantifier": "all ids, ssids, passwords, peer models, randomness of all calls, loop budgets, other primitives", "why_tests_cant": "Composition of three code bases over all randomness; tests run a handful of sessions.", "anchors": ["latke/src/ibke/id_sigma_r.rs: IdSigmaR", "latke/src/latke.rs: Latke", "latke/src/pake/cake.rs: Cake", "pqcrypto/pqcrypto-dilithium/src/dilithium2.rs: keypair_det, detached_sign, verify_detached_signature"]}
{"id": "C63", "title": "The exact panic surface of run, for every PAKE and IBKE", "statement": "In every state that a sequence of calls (failed ones included) can bring a session to, run panics exactly on these messages, and returns on all others: CAKE, a first message that is not empty, 672 or 736 bytes at the respective step; CPace, a message of the wrong length or one on which the crate fails; KC-SPAKE2, a message the crate refuses, one shorter than a MAC, and any message after a refused MAC at the initiator; ID-SIG-DH, any length but 256 or an invalid key in the certificate; ID-HMQV-C, any length but 160 or 192 or two fields that are not points; FG-IBKE-C, any length but 96 (at least 96) or two fields that are not points; ID-SIGMA-R, any length but 704 or 768, then less than 44 bytes, or an authentic plaintext too short or with an invalid key; and any message after the last step.", "quantifier": "all histories of calls with arbitrary messages and randomness, all next messages, both roles, all primitives", "why_tests_cant": "A panic is a remote denial of service; the messages are unbounded and the states include those after errors.", "anchors": ["latke/src/pake/cake.rs: run", "latke/src/pake/cpace.rs: run", "latke/src/pake/kc_spake2.rs: run", "latke/src/ibke/id_sig_dh.rs: run", "latke/src/ibke/id_hmqv_c.rs: run", "latke/src/ibke/fg_ibke.rs: run", "latke/src/ibke/id_sigma_r.rs: run"]}
{"id": "C64", "title": "The exact panic surface of encrypted sessions, LATKE and CHIP", "statement": "An encrypted (EUE) session panics exactly on the messages that do not open under the key of its position in the schedule and on those that open to a message on which the inner session panics. A LATKE session panics, while its PAKE runs, exactly when the PAKE does not return Ok on the message (over CAKE: when it is not empty, 672 or 736 bytes long), and afterwards exactly when the message does not open to one on which the IBKE returns Ok. A CHIP responder never panics on its first message, however malformed, but panics on its second call, whatever arrives, if the first message was not the encoding of two points.", "quantifier": "all histories of calls with arbitrary messages and randomness, all next messages, both roles, all primitives; the shipped PAKEs and IBKEs meet the hypotheses", "why_tests_cant": "Composition over unbounded adversarial histories.", "anchors": ["latke/src/eue_transform.rs: run", "latke/src/latke.rs: run", "latke/src/chip.rs: run"]}
{"id": "C65", "title": "The exact acceptance condition of run, for every PAKE and IBKE", "statement": "In every state that a sequence of calls (failed ones included) can bring a session to, run returns Ok exactly on these messages: CAKE and CPace, those on which it does not panic; KC-SPAKE2, an empty first message, then a message the SPAKE2 crate finishes, at the initiator followed by the responder's MAC (and only if no MAC was refused before), at the responder exactly the initiator's MAC; ID-SIG-DH, an ephemeral key, a signature over role, ssid and key, and a certificate, both signatures valid; ID-HMQV-C and FG-IBKE-C, points and certificate that parse and verify and the MACs of the derived key; ID-SIGMA-R, lengths 704 and 768, then a message whose MAC, certificate and transcript signature verify. Together with the panic surface this decides Ok, Err or panic for every reachable state and message.", "quantifier": "all histories of calls with arbitrary messages and randomness, all next messages, both roles, all primitives", "why_tests_cant": "An over- or under-acceptance shows only on adversarial messages after particular histories.", "anchors": ["latke/src/pake/cake.rs: run", "latke/src/pake/cpace.rs: run", "latke/src/pake/kc_spake2.rs: run", "latke/src/ibke/id_sig_dh.rs: run", "latke/src/ibke/id_hmqv_c.rs: run", "latke/src/ibke/fg_ibke.rs: run", "latke/src/ibke/id_sigma_r.rs: run"]}
{"id": "C66", "title": "The outcome of every call on an encrypted session, refused calls included", "statement": "After any sequence of calls, refused ones included, an encrypted (EUE) session is a session of the inner protocol behind a position in the key schedule: a successful call moves two keys on, a refused one only one. The next call returns Err exactly as the inner session does on the opened message, seals the inner answer under the next key, and is done and finalizes as the inner session does. After a refused message the key under which the peer seals is gone: a retry, or the correct message arriving late, panics unless it opens under the next key.", "quantifier": "all inner protocols, all histories, all messages, both roles, all randomness", "why_tests_cant": "Positions after unboundedly many mixed results; tests stop at the first error.", "anchors": ["latke/src/eue_transform.rs: run, ratchet_keys, is_done, finalize"]}
{"id": "C67", "title": "Whoever produced the accepted proof is the partner, with the same view", "statement": "Under any active attack: a completed ID-SIGMA-R or ID-SIG-DH session has verified a signature on one string T under a key certified for the identity it outputs. Any session of anyone, under any main key and after any history, that signed T has the opposite role, the same ssid, and (ID-SIGMA-R) exactly the certificate bytes the peer presented, the same KEM public key and the same ciphertext, hence the same session key whenever KEM decryption is correct; (ID-SIG-DH) the ephemeral key that was accepted, and the same session key when it received this session's key. The nonce of the other direction is the only part that can differ in ID-SIGMA-R. A completed ID-HMQV-C session and any session that sent the MAC it accepted have the same ssid, the same shared point and the same key, or the two concrete MAC inputs collide in HKDF-Expand.", "quantifier": "all histories of calls of both sessions with arbitrary messages, all ssids of equal length, all primitives (group laws for ID-HMQV-C)", "why_tests_cant": "Cross-session attacks (reflection, replay, role swap, unknown key share) are not enumerable by tests.", "anchors": ["latke/src/ibke/id_sigma_r.rs: run", "latke/src/ibke/id_sig_dh.rs: run", "latke/src/ibke/id_hmqv_c.rs: run"]}
{"id": "C68", "title": "Equal keys mean equal conversations, and what a wrong ssid does", "statement": "If a completed FG-IBKE-C initiator and responder output the same key then they used the same ssid, each outputs the identity in the other's certificate, and each received exactly the messages the other sent, unless these two runs exhibit a concrete HKDF collision; likewise ID-SIG-DH (same ssid, same ephemeral keys, same secrets) and ID-HMQV-C (same ssid, same shared point). But FG-IBKE-C does not confirm the ssid: two honest parties given different ssids both complete, output each other's identity, and hold keys that are one secret expanded under the two ssids, and these can differ.", "quantifier": "all histories of both sessions, all users, ssids of equal length, all randomness", "why_tests_cant": "A statement about pairs of arbitrary runs; the tests only run matching parameters.", "anchors": ["latke/src/ibke/fg_ibke.rs: run, finalize", "latke/src/ibke/id_sig_dh.rs: run, finalize", "latke/src/ibke/id_hmqv_c.rs: run, finalize"]}
{"id": "C69", "title": "LATKE sessions with equal keys are the two sides of one conversation, and each outputs the other's identity", "statement": "Take any completed LATKE initiator and any completed LATKE responder, whatever messages an attacker delivered to them and whatever password files, passwords, ssids and randomness they used. If both output the same session key then, unless these two runs exhibit a concrete collision of the final key derivation (both inputs named), the successful calls of one are exactly the mirror of the other's: every PAKE message and every sealed IBKE message that one sent was received unchanged by the other, in order, with nothing inserted. And unless the first sealed message opens under two different (PAKE key, ssid) pairs, they hold the same PAKE key and the same ssid, and each outputs the identity in the other's certificate (for ID-SIGMA-R also unless the Saber exchange between them failed to decapsulate and the two secrets still expand to one key). Holds for ID-SIG-DH, ID-HMQV-C, FG-IBKE-C and ID-SIGMA-R (Ed25519 and Dilithium2) over CAKE, CPace and KC-SPAKE2; every completed session of these has fixed message sizes.", "quantifier": "all histories of calls of both sessions, all credentials, ssids, passwords and randomness, all shipped IBKE/PAKE pairings", "why_tests_cant": "A statement about all pairs of sessions under active attack.", "anchors": ["latke/src/latke.rs: run, finalize", "latke/src/eue_transform.rs: run", "latke/src/pake/*.rs: run", "latke/src/ibke/*.rs: run"]}
{"id": "C70", "title": "KC-SPAKE2 sessions with one key, or one confirmation tag, are the two sides of one run with one password; CHIP over it shares hellos and points", "statement": "Take any KC-SPAKE2 initiator and responder, with any passwords, ssids and randomness and any messages delivered to them. If both complete with one session key then, unless the key bytes of HKDF-Expand collide on the two named inputs, they used one password, exchanged the same two SPAKE2 messages and hold the same SPAKE2 key. If a completed initiator accepted the tag that some responder sent (whatever else happened to that responder), the same holds, unless the responder-tag bytes collide, and that responder holds the initiator's session key; and if a completed responder accepted the tag an initiator sent, that initiator is done with the same run, unless the initiator-tag bytes collide. A CHIP initiator and a CHIP responder over KC-SPAKE2, each with three successful calls and one key, exchanged identical messages in both directions, hold each other's long-term and ephemeral points and computed the same authentication point, unless the same collision occurs. A CHIP session's second call over KC-SPAKE2 never returns an error.", "quantifier": "all histories of calls of both sessions, all passwords, password files, ssids and randomness, every spake2 crate with fixed sizes", "why_tests_cant": "A statement about all pairs of sessions under active attack.", "anchors": ["latke/src/pake/kc_spake2.rs: run, finalize", "latke/src/chip.rs: run, finalize"]}
{"id": "C71", "title": "CAKE messages fit every password, and a CAKE session is exactly its documented exchange", "statement": "Every 672-byte string decrypts under every ssid and password to exactly one 672-byte string, which is the canonical encoding of a LightSaber public key, and every 736-byte string decrypts to exactly one LightSaber ciphertext: so the first and second messages of any CAKE session, whatever it received, look the same in format under every password, and no password guess can be discarded by decoding them. Whatever the peer sends, the history of an initiator is: nothing; or one call on the empty message that returned the encryption of a fresh public key; or in addition one call on a 736-byte message, after which its key is the decapsulation of that message's decryption. The history of a responder is: nothing; or one call on a 672-byte message that returned the encryption of a ciphertext, for the key decrypted from the message, of a freshly drawn key. The session key of a responder is exactly the first 32 bytes it draws: it does not depend on the ssid, the password or the message received.", "quantifier": "all ssids, passwords, byte strings, randomness and histories of calls", "why_tests_cant": "Ranges over all passwords and all byte strings.", "anchors": ["latke/src/pake/cake.rs: run, finalize, ideal_cipher_encrypt, ideal_cipher_decrypt", "latke/src/ideal_cipher.rs", "saber-rust/src/generic.rs: INDCPAPublicKey::from_bytes, to_bytes"]}
{"id": "C72", "title": "The AVX2 assembly of Dilithium2 computes the reference transforms", "statement": "Run from any contents of the vector registers, the assembly of the AVX2 build computes what the portable C code computes: the forward transform of a polynomial is exactly the portable transform, stored in a fixed permuted order (the same permutation that nttunpack applies to sampled matrices); the inverse transform of a polynomial in that order is congruent modulo q to the portable inverse and below q in absolute value; the pointwise product and the four-term pointwise accumulation compute every coefficient exactly as one Montgomery reduction of the exact 64-bit product or sum of products, also when the output overwrites an operand, and do not depend on the old contents of the output.", "quantifier": "all polynomials within the size bounds of the callers, all register contents, all old contents of the output", "why_tests_cant": "A vector program of a thousand instructions acts on 256 coefficients at once; a test sees some inputs, some register contents.", "anchors": ["pqcrypto/pqclean/crypto_sign/dilithium2/avx2/ntt.S", "pqcrypto/pqclean/crypto_sign/dilithium2/avx2/invntt.S", "pqcrypto/pqclean/crypto_sign/dilithium2/avx2/pointwise.S", "pqcrypto/pqclean/crypto_sign/dilithium2/avx2/shuffle.S", "pqcrypto/pqclean/crypto_sign/dilithium2/avx2/consts.c"]}
{"id": "C73", "title": "The vector loops, byte shuffles and samplers of the AVX2 build compute the portable functions and stay in bounds", "statement": "Every vectorised loop of the AVX2 build that signing and verification use (reduction, conditional addition, addition, subtraction, shift, norm check, high/low decomposition, hint computation) returns what the portable function returns wherever that is defined. The byte-shuffle decoder of z, the byte-shuffle encoder of the high parts, the table-driven hint encoder and the table-driven rejection sampler return exactly the portable results and never read or write outside the buffers they are given; decoding and encoding touch 14 and 8 bytes more than the encoding itself, which are inside the buffers of every caller. Sampling four polynomials at a time gives the four polynomials that sampling them one at a time gives, whatever uninitialised memory contains, so the AVX2 build expands the same matrix and the same masks.", "quantifier": "all inputs, seeds, nonces, register contents and contents of uninitialised memory", "why_tests_cant": "Out-of-bounds accesses of vector code happen only at buffer ends and only for some streams.", "anchors": ["pqcrypto/pqclean/crypto_sign/dilithium2/avx2/poly.c", "pqcrypto/pqclean/crypto_sign/dilithium2/avx2/rounding.c", "pqcrypto/pqclean/crypto_sign/dilithium2/avx2/rejsample.c", "pqcrypto/pqclean/crypto_sign/dilithium2/avx2/polyvec.c"]}
{"id": "C74", "title": "Signing does not depend on the processor", "statement": "For every message and every 2560-byte secret key, the AVX2 build of Dilithium2 signing returns, byte for byte, the signature that the portable build returns, whatever the vector registers, uninitialised memory and the output buffer contain; neither build reads or writes out of bounds. So signatures are a deterministic function of key and message across machines.", "quantifier": "all messages, secret keys, register contents and contents of uninitialised memory", "why_tests_cant": "The two builds are different programs: equality must hold on every key, message and rejected attempt.", "anchors": ["pqcrypto/pqclean/crypto_sign/dilithium2/avx2/sign.c: crypto_sign_signature, crypto_sign", "pqcrypto/pqcrypto-dilithium/src/dilithium2.rs: detached_sign, sign"]}
{"id": "C75", "title": "What the AVX2 build of Dilithium2 verification accepts, and exactly how it differs from the portable build", "statement": "The AVX2 verifier never accesses memory out of bounds, and returns valid exactly when: the signature has 2420 bytes and decodes to (c, z, h); and c is the hash of the message digest and of the high parts of w = A z - c t1 2^13, where a hinted high part moves up if the low part is positive or zero. So it differs from the portable build (and the specification) in two ways: it does not check the norm bound on z, and it repairs a hinted coefficient with low part exactly zero upwards instead of downwards. If neither occurs the builds agree; a signature only the AVX2 build accepts shows one of them; and each difference occurs: for some hash function there are signatures accepted by one build and rejected by the other, in both directions. Every signature made with a generated key, by either build, is accepted by the AVX2 build, and opening a signed message returns its message.", "quantifier": "all signatures, messages, public keys, register contents and contents of uninitialised memory", "why_tests_cant": "The difference shows only on signatures no honest signer makes.", "anchors": ["pqcrypto/pqclean/crypto_sign/dilithium2/avx2/sign.c: crypto_sign_verify, crypto_sign_open", "pqcrypto/pqclean/crypto_sign/dilithium2/avx2/rounding.c: use_hint_avx", "pqcrypto/pqcrypto-dilithium/src/dilithium2.rs: verify_detached_signature, open"]}
{"id": "C76", "title": "Machines with and without AVX2 interoperate", "statement": "Whatever build (portable or AVX2, with any register and memory contents) each signing and each verification of a run executes, ID-SIGMA-R over Dilithium2 sessions agree as in C62, and post-quantum LATKE between two password files of the same password completes in seven calls with each party obtaining the other's id and the same 32-byte key.", "quantifier": "all passwords, ids, ssids, randomness for which the signing calls return and LightSaber decrypts, and all assignments of builds to calls", "why_tests_cant": "Ranges over all assignments of processors to calls.", "anchors": ["pqcrypto/pqcrypto-dilithium/src/dilithium2.rs: detached_sign, verify_detached_signature", "latke/src/ibke/id_sigma_r.rs", "latke/src/latke.rs"]}
{"id": "C77", "title": "The four-way Keccak of the AVX2 build is four SHAKEs", "statement": "For every state, every contents of the vector registers and every four input buffers of the same input length, the AVX2 assembly that permutes four interleaved Keccak states at once leaves in each lane exactly the Keccak-f[1600] permutation of that lane, and the four-way absorb and squeeze functions on top of it return in output j exactly the FIPS 202 SHAKE128 (SHAKE256) output of input j, for every input and output length. They read no input byte beyond the next multiple of eight after the input length, and what those extra bytes, the other lanes and the registers hold has no influence.", "quantifier": "all states, register contents, input buffers, input lengths and output lengths", "why_tests_cant": "A 24-round, four-lane vector permutation has 6400 bits of state and padding bugs appear only at particular lengths; a test vector checks one lane at one length.", "anchors": ["pqcrypto/pqclean/crypto_sign/dilithium2/avx2/f1600x4.S", "pqcrypto/pqclean/crypto_sign/dilithium2/avx2/fips202x4.c: keccakx4_absorb_once, keccakx4_squeezeblocks, shake128x4, shake256x4"]}
{"id": "C78", "title": "Dilithium2 on AVX2 from the hash instructions up: same signatures as portable C, exact acceptance, message binding", "statement": "With every hash computed by the code that is called (the four-way assembly for matrix and masks, fips202.c for digests and challenges) and no hash function abstracted: for every message, 2560-byte secret key, register, memory and buffer contents, AVX2 signing returns byte for byte what portable signing returns; AVX2 verification never leaves an array and accepts exactly the strings C75 describes for the FIPS 202 hash functions; a signature made by either build with a generated key is accepted; and a string that AVX2 verification (on any machines) accepts for two different messages under one key is a SHAKE256 collision between two inputs that are named by key, messages and signature alone.", "quantifier": "all keys, messages, signature strings, register contents and contents of uninitialised memory", "why_tests_cant": "The claims range over all keys and messages, and the last one over all signatures an attacker can make.", "anchors": ["pqcrypto/pqclean/crypto_sign/dilithium2/avx2/poly.c: poly_uniform_4x, poly_uniform_gamma1_4x", "pqcrypto/pqclean/crypto_sign/dilithium2/avx2/sign.c: crypto_sign_signature, crypto_sign_verify", "pqcrypto/pqclean/crypto_sign/dilithium2/avx2/fips202x4.c", "pqcrypto/pqcrypto-internals/cfiles/fips202.c"]}
{"id": "C79", "title": "The two-way samplers of the AArch64 build: when they agree with the portable ones, and what they do otherwise", "statement": "The AArch64 build of Dilithium2 expands two matrix entries at a time. Whenever the first six SHAKE128 blocks (1008 bytes) of each stream hold 256 acceptable candidates, it returns the two polynomials the portable build returns, so that under this condition on the seed the whole matrix is the same. Otherwise it does not read on: the refill overwrites only the front of its five-block buffer and scans all of it again, so it fills the rest of the entry with candidates of blocks two to five that it has already used, where the portable build takes fresh ones. Either way the entries are in range and no memory outside the arrays is touched. The mask sampler agrees with the portable one for every seed and nonce.", "quantifier": "all seeds, nonces and hash functions", "why_tests_cant": "For a random stream the differing branch has probability below 2^-500, so no test meets it; agreement is over all streams.", "anchors": ["pqcrypto/pqclean/crypto_sign/dilithium2/aarch64/poly.c: poly_uniformx2, poly_uniform_gamma1x2", "pqcrypto/pqclean/crypto_sign/dilithium2/aarch64/polyvec.c: polyvec_matrix_expand, polyvecl_uniform_gamma1"]}
{"id": "C80", "title": "The NEON assembly of Dilithium2 computes the reference transforms", "statement": "For every contents of the vector and general registers and every polynomial with coefficients in the range the callers keep, the AArch64 forward transform (two assembly routines, eight layers) accesses only its arrays, returns coefficients congruent modulo q to those of the portable transform, in the same order, and grows the bound by at most eight q; the inverse transform returns coefficients congruent to those of the portable one and of absolute value at most (q-1)/2.", "quantifier": "all input polynomials in range, all register contents", "why_tests_cant": "The input space is q^256 and the saturating and truncating 32-bit lane arithmetic fails only for special values.", "anchors": ["pqcrypto/pqclean/crypto_sign/dilithium2/aarch64/__asm_NTT.S", "pqcrypto/pqclean/crypto_sign/dilithium2/aarch64/__asm_iNTT.S", "pqcrypto/pqclean/crypto_sign/dilithium2/aarch64/NTT_params.h", "pqcrypto/pqclean/crypto_sign/dilithium2/aarch64/ntt.c, ntt.h"]}
{"id": "C81", "title": "The coefficient-wise NEON assembly of Dilithium2 computes the portable functions", "statement": "For every contents of the registers and of the output memory: reduction, conditional addition of q, pointwise Montgomery product (also when the output overwrites an operand), the four-term accumulated product, power2round (also in place) and the ten-bit unpacking of the public key return exactly what the portable functions return (the accumulated product up to a multiple of q, in absolute value below q) and access only their arrays. The freezing routine of the same file, which neither key generation, signing nor verification reaches, runs nine instead of eight times and would read and write 128 bytes beyond the polynomial.", "quantifier": "all polynomials in range, all byte strings, all register and memory contents", "why_tests_cant": "All 32-bit lane values are quantified over; an access beyond the end of an array goes unnoticed by a test that compares results.", "anchors": ["pqcrypto/pqclean/crypto_sign/dilithium2/aarch64/__asm_poly.S: asm_poly_reduce, asm_poly_caddq, asm_poly_freeze, asm_poly_pointwise_montgomery, asm_polyvecl_pointwise_acc_montgomery, asm_poly_power2round, asm_10_to_32", "pqcrypto/pqclean/crypto_sign/dilithium2/aarch64/poly.c", "pqcrypto/pqclean/crypto_sign/dilithium2/aarch64/polyvec.c"]}
{"id": "C82", "title": "Dilithium2 on AArch64 signs and verifies as the portable build", "statement": "For every message, 2560-byte secret key, 1312-byte public key, signature string, budget and contents of registers and uninitialised memory, and every hash function for which six SHAKE128 blocks suffice for every matrix entry of the key: AArch64 signing returns byte for byte what portable signing returns after the same number of attempts, AArch64 verification and opening decide exactly as the portable ones, and a signature made on AArch64 with a generated key is accepted by the AArch64, the portable and the AVX2 verifier. Without the condition on the hash function signing and verification still never leave an array and never overflow.", "quantifier": "all keys, messages, signature strings, hash functions and register contents", "why_tests_cant": "Equality of two programs over all keys and messages.", "anchors": ["pqcrypto/pqclean/crypto_sign/dilithium2/aarch64/sign.c: crypto_sign_signature, crypto_sign_verify, crypto_sign_open", "pqcrypto/pqclean/crypto_sign/dilithium2/aarch64/packing.c", "pqcrypto/pqcrypto-dilithium/src/dilithium2.rs: detached_sign, verify_detached_signature, open"]}
{"id": "C83", "title": "The two-way Keccak of the AArch64 build is two SHAKEs", "statement": "For both variants compiled in (NEON intrinsics, and the assembly for processors with the SHA3 extension), every contents of the registers on entry, every state and every pair of inputs of one length held in buffers readable up to the next multiple of eight bytes: permuting, absorbing, squeezing and the one-shot functions return in each of the two lanes what SHAKE128 (SHAKE256) of FIPS 202 gives for that lane's input, at every output length; the lanes do not influence each other. The bytes read beyond the input, up to seven, do not influence the result, and no byte beyond them is read.", "quantifier": "all inputs, input and output lengths, states, register contents, both variants", "why_tests_cant": "Known-answer tests fix a few inputs and one processor; the SHA3-extension variant does not run on machines without it.", "anchors": ["pqcrypto/pqclean/crypto_sign/dilithium2/aarch64/fips202x2.c: KeccakF1600_StatePermutex2, keccakx2_absorb, keccakx2_squeezeblocks, shake128x2, shake256x2", "pqcrypto/pqclean/crypto_sign/dilithium2/aarch64/feat.S"]}
{"id": "C84", "title": "Dilithium2 on AArch64 from its hash instructions up", "statement": "With the two-way Keccak, the incremental Keccak and the NEON routines as they are, and nothing replaced: for every message, secret key, public key and signature string, contents of registers and of uninitialised memory, and either Keccak variant, AArch64 signing returns the bytes portable signing returns, verification decides as portable verification and accepts exactly the signatures that the specification of Dilithium with the hash functions of FIPS 202 calls valid, and signatures of generated keys made by any of the portable, AVX2 and AArch64 builds are accepted by all three, provided six SHAKE128 blocks hold enough candidates for each matrix entry of the key. Without that proviso nothing leaves an array or overflows.", "quantifier": "all keys, messages, signature strings, register contents and uninitialised bytes", "why_tests_cant": "Equality of two programs over all inputs, hashing included; the proviso fails with negligible probability, so a test cannot meet its failure.", "anchors": ["pqcrypto/pqclean/crypto_sign/dilithium2/aarch64/symmetric-shake.c: dilithium_shake128x2_stream_init, dilithium_shake256x2_stream_init", "pqcrypto/pqclean/crypto_sign/dilithium2/aarch64/poly.c: poly_uniformx2, poly_uniform_gamma1x2", "pqcrypto/pqclean/crypto_sign/dilithium2/aarch64/sign.c", "pqcrypto/pqclean/crypto_sign/dilithium2/aarch64/fips202x2.c", "pqcrypto/pqclean/common/fips202.c"]}
{"id": "C85", "title": "Key generation on AArch64 is the portable key generation", "statement": "For every 32-byte output of the random generator, contents of registers and of uninitialised memory, and either Keccak variant: keypair() on AArch64 returns exactly the pair that portable key generation returns from the same bytes, provided six SHAKE128 blocks hold enough candidates for each matrix entry; so a pair generated there signs on the portable build and the reverse, and all three builds accept the signatures. Without that proviso nothing leaves an array or overflows.", "quantifier": "all seeds, register contents and uninitialised bytes, both Keccak variants", "why_tests_cant": "Equality of two programs over all seeds; keypair() draws its own randomness, so a test cannot choose the seed, and needs the processor.", "anchors": ["pqcrypto/pqclean/crypto_sign/dilithium2/aarch64/sign.c: crypto_sign_keypair", "pqcrypto/pqclean/crypto_sign/dilithium2/aarch64/polyvec.c: polyveck_power2round", "pqcrypto/pqcrypto-dilithium/src/dilithium2.rs: keypair"]}
{"id": "C86", "title": "Key generation on AVX2 is the portable key generation", "statement": "For every 32-byte output of the random generator and every contents of registers and of uninitialised memory, keypair() on a processor with AVX2 returns exactly the pair that portable key generation returns from the same bytes, with the four-way SHAKE and the vector samplers of that build included; nothing leaves an array or overflows.", "quantifier": "all seeds, register contents and uninitialised bytes", "why_tests_cant": "Equality of two programs over all seeds, one of them vector code; keypair() draws its own randomness, so a test cannot choose the seed, and the rejection sampler refills its buffer on rare seeds only.", "anchors": ["pqcrypto/pqclean/crypto_sign/dilithium2/avx2/sign.c: crypto_sign_keypair", "pqcrypto/pqclean/crypto_sign/dilithium2/avx2/rejsample.c: rej_eta_avx", "pqcrypto/pqclean/crypto_sign/dilithium2/avx2/poly.c: poly_uniform_eta_4x", "pqcrypto/pqclean/crypto_sign/dilithium2/avx2/rounding.c: power2round_avx", "pqcrypto/pqcrypto-dilithium/src/dilithium2.rs: keypair"]}
{"id": "C87", "title": "Signatures and keys move between processors", "statement": "keypair, sign and verify choose AVX2, AArch64 or portable code on every call. From one seed every choice makes the same pair; from one private key and message every choice makes the same signature; and that signature is accepted by every choice under the public key made by any choice, when six SHAKE128 blocks suffice for every matrix entry (a proviso needed for AArch64 only).", "quantifier": "all seeds, messages and combinations of builds for the four calls, with any contents of registers and memory", "why_tests_cant": "A test runs on one processor: interoperation across processors is a statement about programs that never run together.", "anchors": ["pqcrypto/pqcrypto-dilithium/src/dilithium2.rs: keypair, detached_sign, verify_detached_signature", "pqcrypto/pqclean/crypto_sign/dilithium2/avx2/sign.c", "pqcrypto/pqclean/crypto_sign/dilithium2/aarch64/sign.c", "pqcrypto/pqclean/crypto_sign/dilithium2/clean/sign.c"]}
{"id": "C88", "title": "LATKE over KC-SPAKE2: one session key, one password, one pair of identities", "statement": "Take any completed LATKE initiator and any completed LATKE responder over KC-SPAKE2, with any of the four shipped IBKEs, whatever messages an attacker delivered to them and whatever password files, peers, ssids and randomness they used. If both output one session key then, unless these two runs exhibit a concrete collision of the final key derivation or of KC-SPAKE2's key derivation (all inputs named) or the first sealed message opens under two different keys: their passwords determine the same main public key, they used one ssid and exchanged the same two SPAKE2 messages, either both or neither fixed the peer beforehand, a fixed peer is the owner of the other password file, and each outputs the identity in the other's certificate.", "quantifier": "all histories of calls of both sessions, all password files, passwords, peer models, ssids and randomness, all four IBKEs, every spake2 crate with fixed sizes", "why_tests_cant": "Quantifies over all attacker-chosen histories of two sessions with unrelated password files; a test only sees the passwords it chose.", "anchors": ["latke/src/latke.rs: new_session, run, finalize, gen_pwfile", "latke/src/pake/kc_spake2.rs: run, finalize", "latke/src/eue_transform.rs"]}
{"id": "C89", "title": "What an accepted MAC of FG-IBKE-C proves", "statement": "Take any completed FG-IBKE-C initiator, whatever messages it received. A responder session of anybody that sent the MAC the initiator accepted, whatever its ssid, main public key, certificate and randomness and whatever it received, computed the initiator's two shared points and holds the same key before finalisation, unless the MACs of these two named pairs of points collide. Likewise an initiator session that sent the MAC a completed responder accepted is itself complete with the responder's points and key. Nothing is said of ssids and identities: the MACs do not cover them (C68).", "quantifier": "all histories of calls of both sessions, all main keys, certificates, ssids and randomness, every prime-order group", "why_tests_cant": "Quantifies over all attacker-chosen histories and over sessions of parties that never meant to talk to each other.", "anchors": ["latke/src/ibke/fg_ibke.rs: run, finalize"]}
{"id": "C90", "title": "A Dilithium2 signature belongs to one key and one message on every processor", "statement": "Whatever string any build of Dilithium2 (portable, AVX2, AArch64) accepts as signature of a message under a key carries in its first 32 bytes a SHAKE256 hash chain over that key and that message. So if one string is accepted under two keys, generated or not, or for two messages, by the same or by different builds on any machine state, then one of three named pairs of inputs is a collision of SHAKE256: the two keys, the two key hashes followed by the messages, or the two challenge inputs.", "quantifier": "all pairs of builds and machine states, all public keys of the right length including maliciously chosen ones, all messages and all strings offered as signatures", "why_tests_cant": "Quantifies over all keys an attacker may choose and over builds whose verifiers are known to differ on crafted signatures (C75, C79).", "anchors": ["pqcrypto-dilithium: dilithium2.rs verify_detached_signature", "PQClean dilithium2 sign.c (clean, avx2, aarch64): crypto_sign_verify", "fips202.c"]}
{"id": "C91", "title": "Post-quantum LATKE works between machines of all kinds", "statement": "ID-SIGMA-R with Dilithium2, and LATKE over CAKE and ID-SIGMA-R, complete with equal keys and each other's identity whatever build of the C code (portable, AVX2, AArch64) every single signing and verification call runs, from the hash instructions up, provided keys checked or used on AArch64 come from the six blocks it squeezes at first. And whatever builds run, an identity is accepted only with a certificate and a transcript signature that the running build accepts, each carrying the hash chain of exactly that key and message.", "quantifier": "all choices of a build per call, all machine states, all users, ids, ssids, peer models, passwords and randomness for which the portable code returns and LightSaber decrypts", "why_tests_cant": "Quantifies over mixed deployments and over all randomness of a run.", "anchors": ["latke/src/ibke/id_sigma_r.rs", "latke/src/latke.rs", "pqcrypto-dilithium/src/dilithium2.rs: keypair_det, detached_sign, verify_detached_signature"]}
{"id": "C92", "title": "Signed messages on every build, with the wrapper's buffers", "statement": "sign(m, sk) returns a 2420-byte signature followed by m, the same on every build, and open(sm, pk) returns m exactly when sm is a 2420-byte signature the running build accepts for m, followed by m, and an error otherwise; what any build signs under a generated key any build opens to the same message; both write only inside the vector they allocated and never expose a byte that was not written; signing and opening in place (output buffer = input buffer, which the C documentation allows) lose nothing although source and target overlap; and one signature opens, by whatever builds and under whatever keys, to one message under one key unless a named pair of strings collides under SHAKE256.", "quantifier": "all messages and signed messages of any length, all keys of the right length, all three builds, all initial contents of registers and memory", "why_tests_cant": "Undefined behaviour of set_len on unwritten memory is invisible to tests, and the quantification is over all messages, keys, builds and memory contents.", "anchors": ["pqcrypto-dilithium/src/dilithium2.rs: sign, open", "pqclean/crypto_sign/dilithium2/{clean,avx2,aarch64}/sign.c: crypto_sign, crypto_sign_open"]}
