(** * AllBuilds: the three builds of Dilithium2 behind one dispatch.  [keypair], [sign] and [verify]
    of pqcrypto's dilithium2.rs take, each time they are called, the AVX2 or the AArch64 functions
    when the processor has them and the portable ones otherwise; so a key may be made by one build,
    used by a second and its signature checked by a third. *)
From Coq Require Import ZArith List Lia Bool.
From Verif Require Import Base DilArith DilNtt DilPoly DilPack DilSample DilSign DilCorrect DilProps DilShake DilShake2.
From Verif Require Import KeccakX4 AvxMachine AvxSign AvxSample AvxSignOk AvxSignOk2 AvxShake AvxShake2 AvxKeypair.
From Verif Require Import A64Sample A64Sign A64SignOk A64SignOk2 A64Props A64Keccak A64Fips A64Shake A64Keypair.
Import ListNotations.
Open Scope Z_scope.
Local Opaque keypair64_c keypair_avx_c keypair_c keypair_det sign_signature64_c sign_signature_avx_c sign_c verify_signature64_c verify_signature_avx_c verify_c fips_xof.

(** A build, with the contents of registers and memory that the call happens to start from: nothing
    is assumed of them but their sizes and that lanes are lanes. *)
Inductive build :=
| Portable
| Avx2 (e : ctx) (yr : list KeccakX4.vec) (sig0 : bytes)
| Aarch64 (e : ctx64) (h : hctx).
Definition build_ok (b : build) : Prop := match b with
| Portable => True
| Avx2 e yr sig0 => ctx_ok e /\ yr_ok yr /\ length sig0 = 2420%nat
| Aarch64 e h => ctx64_ok e /\ hctx_ok h
end.
Definition keypair_of (b : build) (fuel : nat) (seed : bytes) : crun (bytes * bytes) := match b with
| Portable => keypair_c fuel seed
| Avx2 e yr _ => keypair_avx_c e yr fuel seed
| Aarch64 e h => keypair64_c e h fuel seed
end.
Definition sign_of (b : build) (att fuel : nat) (m sk : bytes) : crun bytes := match b with
| Portable => sign_c att fuel m sk
| Avx2 e yr sig0 => sign_signature_avx_c att e yr fuel sig0 m sk
| Aarch64 e h => sign_signature64_c att e h fuel m sk
end.
Definition verify_of (b : build) (fuel : nat) (sig m pk : bytes) : crun bool := match b with
| Portable => verify_c fuel sig m pk
| Avx2 e yr _ => verify_signature_avx_c e yr fuel sig m pk
| Aarch64 e h => verify_signature64_c e h fuel sig m pk
end.

(** ** A pair made by any build is the portable pair *)
Lemma keypair_of_ok : forall b f seed pk sk, build_ok b -> is_bytes seed ->
  keypair_c (S f) seed = CRet (pk, sk) -> six_blocks_suffice fips_xof (firstn 32 pk) -> keypair_of b (S f) seed = CRet (pk, sk).
Proof.
  intros [|e yr sig0|e h] f seed pk sk Hb B E Six; cbn [keypair_of build_ok] in *.
  - exact E.
  - destruct Hb as (He & Y & _). rewrite (avx_keypair_c e yr (S f) seed He Y B). exact E.
  - destruct Hb as (He & Hh). rewrite (a64_keypair_c e h f seed He Hh B); [exact E| |rewrite E; discriminate].
    intros a c E'. assert (a = pk) as -> by congruence. exact Six.
Qed.
Lemma sign_of_ok : forall b att f m sk, build_ok b -> length sk = 2560%nat -> is_bytes m -> is_bytes sk ->
  six_blocks_suffice fips_xof (firstn 32 sk) -> sign_of b att (S f) m sk = sign_c att (S f) m sk.
Proof.
  intros [|e yr sig0|e h] att f m sk Hb L BM BS Six; cbn [sign_of build_ok] in *.
  - reflexivity.
  - destruct Hb as (He & Y & Ls). apply avx_sign_c; assumption.
  - destruct Hb as (He & Hh). apply a64_sign_c; assumption.
Qed.
(** The private key starts with the seed the public key starts with. *)
Lemma keypair_c_facts : forall f seed pk sk, is_bytes seed -> keypair_c f seed = CRet (pk, sk) ->
  is_bytes pk /\ is_bytes sk /\ length pk = 1312%nat /\ length sk = 2560%nat /\ firstn 32 sk = firstn 32 pk.
Proof.
  intros f seed pk sk B E. rewrite keypair_fips in E by exact B. destruct (keypair_bytes _ _ _ _ _ E). destruct (dil_keypair_sizes _ _ _ _ _ E).
  pose proof (key_seed _ _ _ _ _ E). auto.
Qed.
(** All builds make one pair from one seed and one signature from one key and message; and what any
    build [b2] signs with the private key any build [b1] made, any build [b3] accepts under the public
    key any build [b0] made from the same seed. *)
Theorem all_builds_interoperate : forall b0 b1 b2 b3 att f f' seed pk sk m, 
  build_ok b0 -> build_ok b1 -> build_ok b2 -> build_ok b3 -> is_bytes seed -> is_bytes m ->
  keypair_c (S f) seed = CRet (pk, sk) -> six_blocks_suffice fips_xof (firstn 32 pk) ->
  keypair_of b0 (S f) seed = CRet (pk, sk) /\ keypair_of b1 (S f) seed = CRet (pk, sk) /\
  sign_of b2 att (S f') m sk = sign_of b0 att (S f') m sk /\
  (forall sig, sign_of b2 att (S f') m sk = CRet sig -> verify_of b3 (S f') sig m pk = CRet true).
Proof.
  intros b0 b1 b2 b3 att f f' seed pk sk m H0 H1 H2 H3 B BM HK Six.
  destruct (keypair_c_facts _ _ _ _ B HK) as (BP & BS & LP & LS & R).
  assert (Six' : six_blocks_suffice fips_xof (firstn 32 sk)) by (rewrite R; exact Six).
  split; [apply keypair_of_ok; assumption|]. split; [apply keypair_of_ok; assumption|].
  pose proof (sign_of_ok b2 att f' m sk H2 LS BM BS Six') as E2. pose proof (sign_of_ok b0 att f' m sk H0 LS BM BS Six') as E0.
  split; [congruence|]. intros sig E. rewrite E2 in E. clear E2 E0.
  destruct b3 as [|e yr sig0|e h]; cbn [verify_of build_ok] in *.
  - exact (dilithium2_complete (S f) att (S f') (S f') seed pk sk m sig B BM HK E (le_n _)).
  - destruct H3 as (He & Y & _). exact (avx_complete_c e yr (S f) att (S f') (S f') seed pk sk m sig He Y B BM HK E (le_n _)).
  - destruct H3 as (He & Hh).
    exact (proj1 (a64_interop_c e h some_ctx some_yr att (S f) f' seed pk sk m sig He Hh some_ctx_ok some_yr_ok B BM HK Six (or_intror E))).
Qed.
(** AVX2 and the portable build agree on the pair and the signature of every seed, with no premise on
    the matrix. *)
Theorem avx_portable_agree : forall e yr sig0 att f f' seed m, ctx_ok e -> yr_ok yr -> length sig0 = 2420%nat -> is_bytes seed -> is_bytes m ->
  keypair_of (Avx2 e yr sig0) f seed = keypair_of Portable f seed /\
  (forall pk sk, keypair_of Portable f seed = CRet (pk, sk) -> sign_of (Avx2 e yr sig0) att f' m sk = sign_of Portable att f' m sk).
Proof.
  intros e yr sig0 att f f' seed m He Y Ls B BM. cbn [keypair_of sign_of]. split; [apply avx_keypair_c; assumption|].
  intros pk sk E. destruct (keypair_c_facts _ _ _ _ B E) as (BP & BS & LP & LS & _). apply avx_sign_c; assumption.
Qed.

(** ** The premises are met *)
Example builds_exist : build_ok Portable /\ build_ok (Avx2 some_ctx some_yr (repeat 0 2420)) /\ build_ok (Aarch64 some_ctx64 (some_hctx true)) /\ build_ok (Aarch64 some_ctx64 (some_hctx false)).
Proof.
  cbn [build_ok]. split; [exact I|]. split; [split; [apply some_ctx_ok|split; [apply some_yr_ok|apply repeat_length]]|].
  split; (split; [apply some_ctx64_ok|apply some_hctx_ok]).
Qed.
