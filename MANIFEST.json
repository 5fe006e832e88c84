{
 "claims": [
  {
   "property": "C01",
   "status": "proved",
   "theorems": [
    "pk_reload_ok",
    "pk_bytes_reload_ok",
    "pk_reload_any",
    "pk_reload_value",
    "pk_same_bytes_iff"
   ],
   "note": ""
  },
  {
   "property": "C02",
   "status": "proved",
   "theorems": [
    "encaps_reloaded_same",
    "same_bytes_same_encaps",
    "encaps_reloaded_any"
   ],
   "note": ""
  },
  {
   "property": "C03",
   "status": "proved",
   "theorems": [
    "sk_reload_same",
    "sk_bytes_reload_ok",
    "sk_cpa_reload_same",
    "sk_reload_any",
    "sk_cpa_reload_any"
   ],
   "note": ""
  },
  {
   "property": "C04",
   "status": "proved",
   "theorems": [
    "from_bytes_length_exact",
    "accepts_not_rejects"
   ],
   "note": ""
  },
  {
   "property": "C05",
   "status": "proved",
   "theorems": [
    "ind_cpa_correct",
    "ind_cpa_correct_reloaded"
   ],
   "note": ""
  },
  {
   "property": "C06",
   "status": "proved",
   "theorems": [
    "cca_correct",
    "cca_correct_reloaded"
   ],
   "note": ""
  },
  {
   "property": "C07",
   "status": "proved",
   "theorems": [
    "implicit_rejection",
    "reject_invalid"
   ],
   "note": ""
  },
  {
   "property": "C08",
   "status": "proved",
   "theorems": [
    "hint_roundtrip",
    "enc_hint_is_hint",
    "light_hint_exact",
    "light_hint_refuted",
    "light_decryption_failure",
    "light_cca_failure"
   ],
   "note": "holds for Saber and FireSaber; refuted for LightSaber with an exact characterisation, a decryption failure and a CCA-level disagreement"
  },
  {
   "property": "C09",
   "status": "proved",
   "theorems": [
    "poly_mul_textbook",
    "poly_ring_laws",
    "matrix_transpose_identity"
   ],
   "note": ""
  },
  {
   "property": "C10",
   "status": "proved",
   "theorems": [
    "secret_binomial",
    "secret_shape"
   ],
   "note": ""
  },
  {
   "property": "C11",
   "status": "proved",
   "theorems": [
    "documented_sizes",
    "api_sizes"
   ],
   "note": ""
  },
  {
   "property": "C12",
   "status": "proved",
   "theorems": [
    "auth_enc_roundtrip",
    "auth_enc_nonce"
   ],
   "note": ""
  },
  {
   "property": "C13",
   "status": "proved",
   "theorems": [
    "auth_dec_accepts_only_macced",
    "auth_dec_accepts_iff",
    "auth_dec_rejects_changed_tag",
    "auth_dec_changed_body_is_collision"
   ],
   "note": ""
  },
  {
   "property": "C14",
   "status": "proved",
   "theorems": [
    "auth_dec_panics_iff_short",
    "auth_dec_total_refuted"
   ],
   "note": "the stated expectation is refuted; the exact panic condition is proved"
  },
  {
   "property": "C15",
   "status": "proved",
   "theorems": [
    "wide_block_inverse",
    "wide_block_injective",
    "wide_block_short_panics"
   ],
   "note": ""
  },
  {
   "property": "C16",
   "status": "proved",
   "theorems": [
    "eue_transparent"
   ],
   "note": "Meets.v: Example eue_meets meets the hypotheses"
  },
  {
   "property": "C17",
   "status": "proved",
   "theorems": [
    "eue_key_per_message",
    "eue_keys_in_step"
   ],
   "note": "Meets.v: Example eue_meets meets the hypotheses"
  },
  {
   "property": "C18",
   "status": "proved",
   "theorems": [
    "eue_never_leaves_real_mode",
    "eue_bad_ciphertext_panics",
    "eue_short_ciphertext_panics"
   ],
   "note": "the documented fallback is refuted: the proved statements say what happens instead. Meets.v: Example eue_meets meets the hypotheses"
  },
  {
   "property": "C19",
   "status": "proved",
   "theorems": [
    "cake_run_completes",
    "cake_agreement",
    "kem_ok_of_noise",
    "cake_agreement_unconditional_refuted"
   ],
   "note": "agreement iff the KEM decapsulates correctly; unconditional agreement is refuted"
  },
  {
   "property": "C20",
   "status": "proved",
   "theorems": [
    "cpace_agreement",
    "base64_injective",
    "base64_is_ascii"
   ],
   "note": ""
  },
  {
   "property": "C21",
   "status": "proved",
   "theorems": [
    "kc_spake2_agreement",
    "kc_done_only_with_mac",
    "kc_wrong_mac_rejected"
   ],
   "note": ""
  },
  {
   "property": "C22",
   "status": "proved",
   "theorems": [
    "cake_finalize_iff_done",
    "cpace_finalize_iff_done",
    "kc_spake2_finalize_refuted",
    "kc_spake2_finalize_after_bad_mac"
   ],
   "note": "holds for Cake and Cpace, refuted for KcSpake2"
  },
  {
   "property": "C23",
   "status": "proved",
   "theorems": [
    "sig_dh_agreement"
   ],
   "note": "assumes correct signatures and commuting DH, as hypotheses"
  },
  {
   "property": "C24",
   "status": "proved",
   "theorems": [
    "hmqv_agreement"
   ],
   "note": "assumes the group laws"
  },
  {
   "property": "C25",
   "status": "proved",
   "theorems": [
    "fg_ibke_agreement"
   ],
   "note": "assumes the group laws"
  },
  {
   "property": "C26",
   "status": "proved",
   "theorems": [
    "sigma_agreement"
   ],
   "note": "for both signature schemes, assuming correct signatures; the KEM condition is kem_ok (C05/C19)"
  },
  {
   "property": "C27",
   "status": "proved",
   "theorems": [
    "sd_cert_roundtrip",
    "sd_cert_decode_exact",
    "sd_cert_wrong_length_panics",
    "hm_cert_roundtrip",
    "hm_cert_decode_exact",
    "hm_cert_wrong_length_panics",
    "sm_cert_roundtrip",
    "sm_cert_decode_exact",
    "sm_cert_wrong_length_rejected",
    "sm_cert_decode_total",
    "sd_enrolled",
    "sm_enrolled"
   ],
   "note": "Meets.v: Example certs_meet meets the hypotheses"
  },
  {
   "property": "C28",
   "status": "proved",
   "theorems": [
    "sig_dh_done_authentic",
    "hmqv_initiator_done_confirmed",
    "hmqv_responder_done_confirmed",
    "fg_initiator_done_confirmed",
    "fg_responder_done_confirmed",
    "sigma_initiator_done_authentic",
    "sigma_responder_done_authentic"
   ],
   "note": ""
  },
  {
   "property": "C29",
   "status": "proved",
   "theorems": [
    "sig_dh_finalize_iff_done",
    "hmqv_finalize_refuted",
    "fg_finalize_refuted",
    "fg_finalize_unauthenticated",
    "sigma_finalize_unauthenticated",
    "sigma_finalize_refuted",
    "sigma_finalize_refuted_toy"
   ],
   "note": "holds for IdSigDh, refuted for the others"
  },
  {
   "property": "C30",
   "status": "proved",
   "theorems": [
    "sig_dh_sim_size",
    "hmqv_sim_size",
    "fg_sim_always_panics",
    "fg_sim_size_refuted",
    "sigma_sim_size_gap",
    "sigma_sim_size_refuted"
   ],
   "note": "holds for IdSigDh and IdHmqvC, refuted for FgIbkeC and IdSigmaR with the exact gap"
  },
  {
   "property": "C31",
   "status": "proved",
   "theorems": [
    "sig_dh_sim_completes",
    "hmqv_sim_never_done",
    "hmqv_sim_completes_refuted",
    "sigma_sim_completes"
   ],
   "note": "holds for IdSigDh and IdSigmaR, refuted for IdHmqvC"
  },
  {
   "property": "C32",
   "status": "proved",
   "theorems": [
    "latke_agreement",
    "latke_hmqv_kc_spake2",
    "latke_sig_dh_kc_spake2",
    "latke_fg_kc_spake2",
    "latke_sigma_cake",
    "cake_pake_correct",
    "kc_spake2_pake_correct",
    "cpace_pake_correct"
   ],
   "note": "generic theorem for every correct PAKE and IBKE, plus instances"
  },
  {
   "property": "C33",
   "status": "proved",
   "theorems": [
    "pwfile_main_key",
    "pwfile_enrolled",
    "pwfile_id",
    "pwfile_sig_dh",
    "pwfile_hmqv",
    "pwfile_sigma",
    "pwfile_fg"
   ],
   "note": ""
  },
  {
   "property": "C34",
   "status": "proved",
   "theorems": [
    "latke_wire_transcript",
    "latke_key_binds_transcript",
    "latke_kdf_input_injective"
   ],
   "note": "Meets.v: Example latke_phase_meets meets the hypotheses"
  },
  {
   "property": "C35",
   "status": "proved",
   "theorems": [
    "latke_done_means",
    "latke_bad_ciphertext_panics",
    "latke_current_key",
    "latke_first_bad_ciphertext_panics",
    "latke_pake_failure_panics",
    "latke_ibke_failure_panics"
   ],
   "note": "Meets.v: Example latke_phase_meets meets the hypotheses"
  },
  {
   "property": "C36",
   "status": "proved",
   "theorems": [
    "chip_agreement",
    "chip_kc_spake2"
   ],
   "note": "for every correct PAKE of at least one message; group laws as hypotheses"
  },
  {
   "property": "C37",
   "status": "proved",
   "theorems": [
    "cake_steps",
    "cpace_steps",
    "kc_spake2_steps",
    "sig_dh_steps",
    "hmqv_steps",
    "fg_steps",
    "sigma_steps",
    "chip_steps"
   ],
   "note": ""
  },
  {
   "property": "C38",
   "status": "proved",
   "theorems": [
    "prespecified_id_refuted"
   ],
   "note": "the stated expectation is refuted by a concrete completed run"
  },
  {
   "property": "C39",
   "status": "proved",
   "theorems": [
    "latke_done_inner",
    "latke_sig_dh_authenticates",
    "latke_hmqv_initiator_authenticates",
    "latke_hmqv_responder_authenticates",
    "latke_fg_initiator_authenticates",
    "latke_fg_responder_authenticates",
    "latke_sigma_initiator_authenticates",
    "latke_sigma_responder_authenticates"
   ],
   "note": ""
  },
  {
   "property": "C40",
   "status": "proved",
   "theorems": [
    "chip_initiator_input",
    "chip_responder_input",
    "chip_input_injective",
    "chip_initiator_bad_hello_panics",
    "chip_responder_bad_hello_panics"
   ],
   "note": ""
  },
  {
   "property": "C41",
   "status": "proved",
   "theorems": [
    "chip_stale_transcript",
    "shipped_first_call_never_fails",
    "chip_no_stale_transcript",
    "second_call_ok"
   ],
   "note": "the stated expectation is refuted for a PAKE whose first call can fail, and holds for the shipped PAKEs; chip_initiator_input gives the exact input in all cases"
  },
  {
   "property": "C42",
   "status": "proved",
   "theorems": [
    "chip_finalize_guarded",
    "chip_finalize_before_pake_panics",
    "chip_kc_spake2_finalize_refuted"
   ],
   "note": "holds for PAKEs with a guarded finalize, refuted for the shipped pairing with KcSpake2"
  },
  {
   "property": "C43",
   "status": "proved",
   "theorems": [
    "dil_complete",
    "dil_sign_open"
   ],
   "note": "SHAKE is an arbitrary function of its input (record xof); the loops that sample until done carry fuel, and the theorem covers every fuel with which they return"
  },
  {
   "property": "C44",
   "status": "proved",
   "theorems": [
    "dil_keypair_defined",
    "dil_sign_defined",
    "dil_verify_defined"
   ],
   "note": "32- and 64-bit operations are checked (CUB is undefined behaviour)"
  },
  {
   "property": "C45",
   "status": "proved",
   "theorems": [
    "dil_verify_spec",
    "dil_verify_reject",
    "dil_verify_iff"
   ],
   "note": "valid_spec in DilSpec.v is the specification"
  },
  {
   "property": "C46",
   "status": "proved",
   "theorems": [
    "dil_sign_spec",
    "attempt_functional"
   ],
   "note": "attempt_spec in DilSpec.v is the specification"
  },
  {
   "property": "C47",
   "status": "proved",
   "theorems": [
    "dil_keypair_spec",
    "dil_keypair_sizes",
    "dil_keypair_format"
   ],
   "note": "keypair_spec in DilSpec2.v is the specification"
  },
  {
   "property": "C48",
   "status": "proved",
   "theorems": [
    "dil_encoding_unique",
    "dil_hint_format",
    "dil_signature_format",
    "pack_unpack_sig",
    "unpack_pack_sig",
    "pack_unpack_hint",
    "unpack_pack_hint"
   ],
   "note": ""
  },
  {
   "property": "C49",
   "status": "proved",
   "theorems": [
    "dil_signature_shape",
    "dil_sign_format",
    "dil_norm_check_exact"
   ],
   "note": ""
  },
  {
   "property": "C50",
   "status": "proved",
   "theorems": [
    "dil_sign_deterministic",
    "dil_verify_deterministic",
    "dil_sign_attempts",
    "dil_keypair_mono",
    "dil_sign_mono",
    "dil_verify_mono"
   ],
   "note": ""
  },
  {
   "property": "C51",
   "status": "proved",
   "theorems": [
    "dil_message_binding",
    "dil_verify_split",
    "sig_w1_unique",
    "dil_message_transfer"
   ],
   "note": ""
  },
  {
   "property": "C52",
   "status": "proved",
   "theorems": [
    "dil_ntt_product",
    "dil_ntt_inverse",
    "dil_challenge_product"
   ],
   "note": ""
  },
  {
   "property": "C53",
   "status": "proved",
   "theorems": [
    "detached_exact",
    "detached_signatures_move",
    "dil_detached_roundtrip",
    "dil_detached_accepts",
    "dil_detached_short",
    "dil_open_iff",
    "dil_key_lengths"
   ],
   "note": ""
  },
  {
   "property": "C54",
   "status": "proved",
   "theorems": [
    "poly_uniform_ok",
    "poly_uniform_eta_ok",
    "poly_uniform_gamma1_ok",
    "poly_challenge_ok",
    "dil_uniform_spec",
    "dil_eta_spec",
    "dil_challenge_spec",
    "dil_mask_spec"
   ],
   "note": "the _spec theorems say exactly which values of the output stream are used"
  },
  {
   "property": "C55",
   "status": "proved",
   "theorems": [
    "polyeta_un_pack",
    "polyt1_un_pack",
    "polyt0_un_pack",
    "polyz_un_pack",
    "polyeta_pack_un",
    "polyt1_pack_un",
    "polyt0_pack_un",
    "polyz_pack_un",
    "polyeta_unpack_range",
    "polyt1_unpack_range",
    "polyt0_unpack_range",
    "polyz_unpack_range",
    "polyw1_pack_inj",
    "unpack_pack_pk",
    "pack_unpack_pk",
    "unpack_pack_sk",
    "pack_unpack_sk",
    "pack_pk_length",
    "pack_sk_length"
   ],
   "note": ""
  },
  {
   "property": "C56",
   "status": "proved",
   "theorems": [
    "dil_public_key_format",
    "dil_secret_key_format",
    "dil_signature_format",
    "dil_hint_format",
    "dil_pack_sig_format",
    "dil_pack_pk_format",
    "dil_pack_sk_format",
    "dil_keypair_format",
    "dil_sign_format",
    "dil_w1_format",
    "bit_packed_unique",
    "bit_packed_inj"
   ],
   "note": ""
  },
  {
   "property": "C57",
   "status": "proved",
   "theorems": [
    "saber_13bit_format",
    "saber_10bit_format",
    "saber_6bit_format",
    "saber_4bit_format",
    "saber_3bit_format",
    "saber_13bit_parse",
    "saber_10bit_parse",
    "saber_6bit_parse",
    "saber_4bit_parse",
    "saber_3bit_parse",
    "saber_pk_vec_format",
    "saber_sk_vec_format"
   ],
   "note": "the LightSaber hint encoder deviates from the format; saber_3bit_format says exactly how"
  },
  {
   "property": "C58",
   "status": "proved",
   "theorems": [
    "matrix_spec",
    "keygen_cpa_spec",
    "keygen_spec",
    "encryption_spec",
    "encapsulate_spec",
    "encapsulate_cpa_spec",
    "decryption_spec",
    "encryption_unique",
    "decryption_inputs"
   ],
   "note": "specification at the head of SaberFull.v; decapsulate's hash chain is C04's implicit_rejection"
  },
  {
   "property": "C59",
   "status": "proved",
   "theorems": [
    "wide_block_encrypt_exact",
    "wide_block_decrypt_exact",
    "auth_encrypt_exact",
    "cake_initiator_key",
    "cake_responder_key",
    "cpace_initiator_key",
    "cpace_responder_key",
    "sig_dh_initiator_key",
    "sig_dh_responder_key",
    "hmqv_keys_exact",
    "hmqv_initiator_key",
    "hmqv_responder_key",
    "fg_initiator_key",
    "fg_responder_key",
    "sigma_initiator_key",
    "sigma_responder_key",
    "certificates_exact",
    "chip_pwfile_exact",
    "agreement_gives_done_histories"
   ],
   "note": "KC-SPAKE2's key and MACs are spelled out in C21's theorems"
  },
  {
   "property": "C60",
   "status": "proved",
   "theorems": [
    "shake128_fips202",
    "shake256_fips202",
    "sha3_256_fips202",
    "sha3_384_fips202",
    "sha3_512_fips202",
    "is_xof_unique",
    "shake128_incremental",
    "shake256_incremental",
    "shake128_blocks",
    "shake256_blocks",
    "sha3_incremental",
    "shake_prefix",
    "permute_is_keccak_f"
   ],
   "note": "specification: KeccakSpec.v, bit level, after the text of FIPS 202; checked against published vectors in KeccakWitness.v"
  },
  {
   "property": "C61",
   "status": "proved",
   "theorems": [
    "poly_uniform_fips",
    "poly_uniform_eta_fips",
    "poly_uniform_gamma1_fips",
    "poly_challenge_fips",
    "hash2_fips",
    "shake256_fips",
    "keypair_fips",
    "sign_fips",
    "verify_fips",
    "dilithium2_complete",
    "dilithium2_verify_spec",
    "dilithium2_message_binding"
   ],
   "note": "termination of the rejection samplers on the SHAKE streams is not claimed: results are stated for runs that finish within the given fuel"
  },
  {
   "property": "C62",
   "status": "proved",
   "theorems": [
    "sigma_dilithium_agreement",
    "latke_dilithium_agreement",
    "sigma_dilithium_authentic",
    "dil_c_ok",
    "dil_x_ok",
    "sigma_run_ok_toy"
   ],
   "note": "signature correctness is derived from the Dilithium2 model (C61), for the messages of the run; non-vacuity shown with the toy extendable-output function, for which every call returns"
  },
  {
   "property": "C63",
   "status": "proved",
   "theorems": [
    "cake_run_panics_iff",
    "cpace_run_panics_iff",
    "kc_spake2_run_panics_iff",
    "sig_dh_run_panics_iff",
    "hmqv_run_panics_iff",
    "fg_run_panics_iff",
    "sigma_run_panics_iff"
   ],
   "note": "specification at the head of PropsPanic.v: the condition speaks of the number of successful calls and of the bytes of the message"
  },
  {
   "property": "C64",
   "status": "proved",
   "theorems": [
    "eue_run_panics_iff",
    "latke_run_panics_iff",
    "latke_cake_phase_panics_iff",
    "chip_cake_run_panics_iff",
    "cake_hands_over",
    "cpace_hands_over",
    "kc_spake2_hands_over",
    "sig_dh_starts",
    "hmqv_starts",
    "fg_starts",
    "sigma_starts"
   ],
   "note": "EUE: histories without inner errors, which are all those that occur in LATKE; CHIP: over CAKE"
  },
  {
   "property": "C65",
   "status": "proved",
   "theorems": [
    "sig_dh_run_ok_iff",
    "hmqv_run_ok_iff",
    "fg_run_ok_iff",
    "sigma_run_ok_iff",
    "cake_run_ok_iff",
    "kc_spake2_run_ok_iff",
    "cpace_run_ok_iff"
   ],
   "note": "with C63 a complete trichotomy Panic / Ok / Err in every reachable state"
  },
  {
   "property": "C66",
   "status": "proved",
   "theorems": [
    "eue_run_exact",
    "eue_error_loses_key"
   ],
   "note": "specification at the head of PropsAccept2.v; all three answers shown to occur (eue_all_answers)"
  },
  {
   "property": "C67",
   "status": "proved",
   "theorems": [
    "sigma_signature_sent",
    "sigma_initiator_matched",
    "sigma_responder_matched",
    "sig_dh_initiator_matched",
    "sig_dh_responder_matched",
    "hmqv_initiator_matched",
    "hmqv_responder_matched",
    "sigma_match_meets"
   ],
   "note": "unforgeability itself is not modelled: the theorems say that the alternative to a matching partner is a forged signature or a named KDF collision. Honest runs meet the hypotheses: sigma_match_meets, Example equal_keys_meet"
  },
  {
   "property": "C68",
   "status": "proved",
   "theorems": [
    "fg_equal_keys_matched",
    "hmqv_equal_keys_matched",
    "sig_dh_equal_keys_matched",
    "fg_ssid_mismatch_undetected",
    "fg_ssid_mismatch_keys_differ"
   ],
   "note": "FINDING: FG-IBKE-C completes on both sides although the ssids differ, with different keys. Honest runs meet the hypotheses: Example equal_keys_meet"
  },
  {
   "property": "C69",
   "status": "proved",
   "theorems": [
    "latke_equal_keys_conversation",
    "latke_equal_keys_matched",
    "latke_sig_dh_equal_keys",
    "latke_hmqv_equal_keys",
    "latke_fg_equal_keys",
    "latke_sigma_equal_keys",
    "shipped_pakes_rigid",
    "pwfile_credentials",
    "equal_keys_met_by_honest_runs",
    "cake_rigid",
    "cpace_rigid",
    "kc_spake2_rigid",
    "sig_dh_rigid",
    "hmqv_rigid",
    "fg_rigid",
    "sigma_rigid"
   ],
   "note": "equal_keys_bind is the specification. KC-SPAKE2 assumes that the spake2 crate's messages have one size and that it accepts no other (spake_sized). Honest runs meet the hypotheses: equal_keys_met_by_honest_runs, Example latke_equal_keys_meet"
  },
  {
   "property": "C70",
   "status": "proved",
   "theorems": [
    "kc_spake2_equal_keys",
    "kc_spake2_initiator_matched",
    "kc_spake2_responder_matched",
    "second_call_ok",
    "chip_kc_spake2_equal_keys",
    "chip_equal_keys_met_by_honest_runs",
    "toy_spake_sizes"
   ],
   "note": "same_run, collide_at and chip_beta are the specification. Assumes that the spake2 crate's messages have one size, that it accepts no other and that its keys have 32 bytes (spake_sizes). Honest runs meet the hypotheses: Example kc_pair_meets, chip_equal_keys_met_by_honest_runs"
  },
  {
   "property": "C71",
   "status": "proved",
   "theorems": [
    "cake_first_message_fits_every_password",
    "cake_second_message_fits_every_password",
    "cake_transcript_fits_every_password",
    "cake_session_exact",
    "cake_responder_key_is_its_draw",
    "cake_responder_key_ignores_peer"
   ],
   "note": "cake_I_did and cake_R_did are the specification. Example cake_responder_meets exhibits a session"
  },
  {
   "property": "C72",
   "status": "proved",
   "theorems": [
    "nttunpack_ok",
    "ntt_avx_ok",
    "invntt_avx_ok",
    "pointwise_avx_ok",
    "pointwise_alias_avx_ok",
    "pointwise_acc_avx_ok"
   ],
   "note": "the programs are transcribed instruction by instruction in AvxMachine.v and AvxPoint.v; symbolic execution checked by the kernel. Size bounds on the inputs are those the callers guarantee (C74, C75)"
  },
  {
   "property": "C73",
   "status": "proved",
   "theorems": [
    "reduce_avx_ok",
    "add_avx_ok",
    "sub_avx_ok",
    "shiftl_avx_ok",
    "caddq_avx_ok",
    "decompose_lane_ok",
    "use_hint_lane_ok",
    "chknorm_avx_ok",
    "hint_lane_ok",
    "make_hint_avx_ok",
    "rej_uniform_avx_ok",
    "polyz_unpack_avx_ok",
    "polyw1_pack_avx_ok",
    "poly_uniform_4x_ok",
    "matrix_row_avx_ok",
    "matrix_expand_avx_ok",
    "gamma1_4x_ok",
    "gamma1_vec_avx_ok"
   ],
   "note": "use_hint_lane_ok states the deviation of use_hint at low part zero (C75). Hashing is reading arbitrary streams here; C77 and C78 connect it to the four-way assembly"
  },
  {
   "property": "C74",
   "status": "proved",
   "theorems": [
    "avx_sign_signature",
    "avx_crypto_sign"
   ],
   "note": "some_ctx_ok exhibits register and memory contents; AVX2 key generation is C86"
  },
  {
   "property": "C75",
   "status": "proved",
   "theorems": [
    "avx_verify_spec",
    "avx_verify_run",
    "avx_clean_agree",
    "avx_only",
    "avx_accepts_long_z",
    "zero_hint_builds_differ",
    "avx_complete",
    "avx_verify_mono",
    "avx_open_iff",
    "avx_sign_open",
    "valid_spec_decoded"
   ],
   "note": "FINDING: the AVX2 verifier omits the norm check on z and repairs hinted zero low parts the other way; specification at the head of AvxSpec.v. The divergence examples use toy hash functions"
  },
  {
   "property": "C76",
   "status": "proved",
   "theorems": [
    "dil_mixed_ok",
    "mixed_run_ok",
    "sigma_mixed_agreement",
    "latke_mixed_agreement"
   ],
   "note": "the build of a call is a function of its arguments (two equal calls run the same build). Example mixed_run_meets exhibits runs that meet the hypotheses"
  },
  {
   "property": "C77",
   "status": "proved",
   "theorems": [
    "f1600x4_ok",
    "absorb_once_ok",
    "squeezeblocks4_ok",
    "shakex4_ok",
    "shake128x4_fips202",
    "shake256x4_fips202"
   ],
   "note": "f1600x4.S transcribed instruction by instruction in KeccakX4.v; FIPS 202 as in C60. AvxKeccakWitness.v runs the model on a published vector and meets the hypotheses"
  },
  {
   "property": "C78",
   "status": "proved",
   "theorems": [
    "poly_uniform_4x_c_ok",
    "gamma1_4x_c_ok",
    "avx_sign_c",
    "avx_verify_c_spec",
    "avx_complete_c",
    "avx_message_binding",
    "avx_w1_unique"
   ],
   "note": "the registers at entry of the four-way permutation are one arbitrary value per run; the results do not depend on it. avx_w1 is the high part the verifier recomputes, determined by signature and key (avx_w1_unique)"
  },
  {
   "property": "C79",
   "status": "proved",
   "theorems": [
    "uniform_gamma1_64_ok",
    "uniformx2_ok",
    "matrix_expand64_ok",
    "uniformx2_repeats",
    "uniform_reads_on",
    "matrix_expand64_safe"
   ],
   "note": "the example samplers_differ in A64Props.v is a stream on which the two samplers return different polynomials; the two-way Keccak underneath is C83"
  },
  {
   "property": "C80",
   "status": "proved",
   "theorems": [
    "ntt64_ok",
    "invntt64_ok",
    "k_ntt_ok",
    "k_invntt_ok"
   ],
   "note": "__asm_NTT.S and __asm_iNTT.S transcribed instruction by instruction; k_ntt_ok and k_invntt_ok restate the results as evaluation at, and interpolation from, the 256 roots"
  },
  {
   "property": "C81",
   "status": "proved",
   "theorems": [
    "reduce64_ok",
    "caddq64_ok",
    "pointwise64_ok",
    "acc64_map",
    "k_acc_ok",
    "power2round64_ok",
    "polyt1_unpack64_ok",
    "freeze64_out_of_bounds",
    "freeze64_needs_288"
   ],
   "note": "freeze64_out_of_bounds: dead code (poly_freeze is called only by polyvecl_freeze and polyveck_freeze, and these by nobody)"
  },
  {
   "property": "C82",
   "status": "proved",
   "theorems": [
    "a64_sign_signature",
    "a64_verify_signature",
    "a64_crypto_sign_open",
    "a64_sign_defined",
    "a64_verify_defined",
    "a64_complete"
   ],
   "note": "six_blocks_suffice is the only condition on the hash; a64_example meets all hypotheses"
  },
  {
   "property": "C83",
   "status": "proved",
   "theorems": [
    "permutex2_ok",
    "absorb2_ok",
    "squeeze2_ok",
    "shakex2_ok",
    "shake128x2_fips202",
    "shake256x2_fips202"
   ],
   "note": "feat.S is transcribed as written; its comments start with a semicolon, which only Apple's assembler takes. overrun: a buffer not readable up to a multiple of eight bytes is read beyond its end"
  },
  {
   "property": "C84",
   "status": "proved",
   "theorems": [
    "poly_uniformx2_c_ok",
    "uniform_gamma1_64_c_ok",
    "sign64_fips",
    "verify64_fips",
    "a64_sign_c",
    "a64_verify_c",
    "a64_defined_c",
    "a64_verify_spec_c",
    "a64_interop_c"
   ],
   "note": "six_blocks_suffice fips_xof rho is the proviso of C79 for the SHAKE128 of FIPS 202"
  },
  {
   "property": "C85",
   "status": "proved",
   "theorems": [
    "a64_keypair",
    "a64_keypair_defined",
    "keypair64_fips",
    "a64_keypair_c",
    "a64_keypair_defined_c",
    "a64_keypair_interop"
   ],
   "note": "six_blocks_suffice fips_xof rho is the proviso of C79"
  },
  {
   "property": "C86",
   "status": "proved",
   "theorems": [
    "avx_keypair_c",
    "avx_keypair_defined",
    "avx_keypair_det",
    "eta_4x_ok",
    "rej_eta_avx_ok",
    "power2round_avx_ok",
    "invntt_avx_tight"
   ],
   "note": "no proviso beyond 16 vector registers of lanes and byte-valued memory; the theorem also holds of runs that do not end within the fuel"
  },
  {
   "property": "C87",
   "status": "proved",
   "theorems": [
    "all_builds_interoperate",
    "avx_portable_agree",
    "keypair_of_ok",
    "sign_of_ok"
   ],
   "note": "six_blocks_suffice fips_xof rho is the proviso of C79; the AVX2/portable pair needs none"
  },
  {
   "property": "C88",
   "status": "proved",
   "theorems": [
    "latke_kc_equal_keys",
    "latke_sig_dh_kc_equal_keys",
    "latke_hmqv_kc_equal_keys",
    "latke_fg_kc_equal_keys",
    "latke_sigma_kc_equal_keys",
    "pwfiles_sized",
    "pake_input_binds",
    "latke_pake_hist"
   ],
   "note": "kc_equal_keys_bind and same_main_key are the specification; pwfiles_sized says what they mean for password files. Assumes spake_sizes (C70). For ID-SIGMA-R the identities are also excepted when the Saber exchange fails to decapsulate (kem_failed, C69). Honest runs meet the hypotheses: Example kc_equal_keys_meets"
  },
  {
   "property": "C89",
   "status": "proved",
   "theorems": [
    "fg_initiator_matched",
    "fg_responder_matched"
   ],
   "note": "shared and fg_collide are the specification. Group laws as in C25. Honest runs meet the hypotheses: Example fg_match_meets"
  },
  {
   "property": "C90",
   "status": "proved",
   "theorems": [
    "accepted_signature_names",
    "exclusive_ownership"
   ],
   "note": "shake_collision is the specification; SHAKE256 is that of FIPS 202 on bits. No premise on the matrix is needed on AArch64. Acceptance is reachable: Example names_meets; two acceptances of one string need a collision, as the theorem says"
  },
  {
   "property": "C91",
   "status": "proved",
   "theorems": [
    "dil_any_ok",
    "any_run_ok",
    "sigma_any_agreement",
    "latke_any_agreement",
    "sigma_any_authentic"
   ],
   "note": "Extends C62 and C76 to the AArch64 build and to the hash instructions. The premise on keys used on AArch64 is that of C79/C82. Examples some_any_ok, some_arm_ok; two calls with the same arguments run the same build"
  },
  {
   "property": "C92",
   "status": "proved",
   "theorems": [
    "signed_message_exact",
    "open_exact",
    "signed_messages_move",
    "opened_names_one",
    "sign_in_place",
    "open_in_place"
   ],
   "note": "The result is undefined (CUB) if a store leaves the allocation or set_len exposes an unwritten byte; on AArch64 the premise on the key is that of C79/C82. The signer and verifier themselves are those of C43-C87"
  }
 ]
}