(** * AvxMixed: ID-SIGMA-R and post-quantum LATKE between machines with and without AVX2. *)
From Coq Require Import ZArith List Lia Bool String.
From Verif Require Import Base SaberPoly SaberKem SaberVec SaberDec SaberDec2 SaberFacts SaberSpec PropsSaber Crypto Symmetric PropsSym Driver Pakes PropsPake
  Ibkes IbkeSpec PropsSigDh PropsSigma Eue Latke LatkeSim PropsLatke PropsLatke2 SigmaDil.
From Verif Require DilArith DilPoly DilSign DilProps DilSpec DilWitness DilShake DilShake2 AvxSign AvxSample AvxSignOk2 AvxSpec.
Import ListNotations.
Open Scope Z_scope.
Local Opaque DilSign.keypair_det DilSign.sign_signature DilSign.verify_signature AvxSign.sign_signature_avx AvxSign.verify_signature_avx DilShake.fips_xof.

(** pqcrypto-dilithium/src/dilithium2.rs 323-330, 359-370: each call of sign and verify runs the AVX2
    build if the machine that makes it has AVX2, and the CLEAN build otherwise; key generation
    from coins is always the CLEAN build (177-192).  [bs m sk] says which build a call signs
    with: [None] is the CLEAN build, [Some (e, sig0)] the AVX2 build, entered with registers and
    uninitialised memory [e] and an output buffer that holds [sig0].  [bv sg m pk] likewise for
    verification.
    Simplification: two calls with the same arguments run the same build. *)
Definition dil_mixed (X : DilPoly.xof) (att fuel : nat) (bs : bytes -> bytes -> option (AvxSign.ctx * bytes))
    (bv : bytes -> bytes -> bytes -> option AvxSign.ctx) : dil_impl :=
  {| d_keypair := DilSign.keypair_det fuel X;
     d_sign := fun m sk => match bs m sk with
       | None => DilSign.sign_signature att fuel X m sk
       | Some (e, sig0) => AvxSign.sign_signature_avx att e fuel X sig0 m sk end;
     d_verify := fun sg m pk => match bv sg m pk with
       | None => DilSign.verify_signature fuel X sg m pk
       | Some e => AvxSign.verify_signature_avx e fuel X sg m pk end |}.
(** Registers hold eight 32-bit lanes, memory holds bytes, the output buffer has room for a signature. *)
Definition builds_ok (bs : bytes -> bytes -> option (AvxSign.ctx * bytes)) (bv : bytes -> bytes -> bytes -> option AvxSign.ctx) : Prop :=
  (forall m sk, match bs m sk with None => True | Some (e, sig0) => AvxSample.ctx_ok e /\ List.length sig0 = 2420%nat end) /\
  (forall sg m pk, match bv sg m pk with None => True | Some e => AvxSample.ctx_ok e end).
(** Whatever builds the calls run, key sizes and signatures are as in the CLEAN build, and what
    was signed verifies. *)
Theorem dil_mixed_ok : forall X att fuel bs bv, builds_ok bs bv -> dil_impl_ok (dil_mixed X att fuel bs bv).
Proof.
  intros X att fuel bs bv [BS BV]. split.
  - intros coins pk sk B H. cbn [dil_mixed d_keypair] in H. exact (proj1 (dil_x_ok X att fuel) coins pk sk B H).
  - intros coins pk sk m sg B BM H S. cbn [dil_mixed d_keypair d_sign d_verify] in *.
    destruct (DilProps.dil_keypair_sizes _ _ _ _ _ H) as [_ L2].
    assert (S' : DilSign.sign_signature att fuel X m sk = CRet sg).
    { specialize (BS m sk). destruct (bs m sk) as [[e sig0]|]; [|exact S]. destruct BS as [He L0].
      rewrite (AvxSignOk2.avx_sign_signature att e fuel X sig0 m sk He L0 L2) in S. exact S. }
    destruct (proj2 (dil_x_ok X att fuel) coins pk sk m sg B BM H S') as (L & BG & V). cbn [dil_x d_verify] in V.
    split; [exact L|]. split; [exact BG|]. specialize (BV sg m pk). destruct (bv sg m pk) as [e|]; [|exact V].
    exact (AvxSpec.avx_complete e fuel att fuel fuel X coins pk sk m sg BV H S' (le_n _)).
Qed.
(** A run returns with one choice of builds if and only if it returns with any other: signatures
    do not depend on the build. *)
Theorem mixed_run_ok : forall X att fuel bs bv h rm ruI ruR idI idR ssid rI rR os0 os1, builds_ok bs bv ->
  sigma_run_ok (dil_x X att fuel) h rm ruI ruR idI idR ssid rI rR os0 os1 ->
  sigma_run_ok (dil_mixed X att fuel bs bv) h rm ruI ruR idI idR ssid rI rR os0 os1.
Proof.
  intros X att fuel bs bv h rm ruI ruR idI idR ssid rI rR os0 os1 [BS _] R.
  assert (T : forall coins pk sk m sg, DilSign.keypair_det fuel X coins = CRet (pk, sk) -> d_sign (dil_x X att fuel) m sk = CRet sg ->
    d_sign (dil_mixed X att fuel bs bv) m sk = CRet sg).
  { intros coins pk sk m sg H S. cbn [dil_mixed dil_x d_sign] in *. specialize (BS m sk). destruct (bs m sk) as [[e sig0]|]; [|exact S]. destruct BS as [He L0].
    destruct (DilProps.dil_keypair_sizes _ _ _ _ _ H) as [_ L2]. rewrite (AvxSignOk2.avx_sign_signature att e fuel X sig0 m sk He L0 L2). exact S. }
  destruct R as (mpk & msk & upkI & uskI & upkR & uskR & csI & csR & kpk & ksk & ro & ss & ct & ro' & sA & sB & K1 & K2 & K3 & S1 & S2 & E1 & E2 & E3 & S3 & S4).
  cbn [dil_x d_keypair] in K1, K2, K3.
  exists mpk, msk, upkI, uskI, upkR, uskR, csI, csR, kpk, ksk, ro, ss, ct, ro', sA, sB.
  split; [exact K1|]. split; [exact K2|]. split; [exact K3|]. split; [exact (T _ _ _ _ _ K1 S1)|]. split; [exact (T _ _ _ _ _ K1 S2)|].
  split; [exact E1|]. split; [exact E2|]. split; [exact E3|]. split; [exact (T _ _ _ _ _ K2 S3)|exact (T _ _ _ _ _ K3 S4)].
Qed.

(** ** Agreement *)
Theorem sigma_mixed_agreement : forall P0 X att fuel bs bv h, builds_ok bs bv ->
  let I := IdSigmaR Dilithium2 (with_dilithium P0 (dil_mixed X att fuel bs bv)) h in
  forall rm ruI ruR idI idR ssid rI rR tape M Ms rm' UI skI rI' UR skR rR' re1 re2 re1' re2' cI cR,
  is_bytes idI -> is_bytes idR -> is_bytes ssid -> List.length idI = 32%nat -> List.length idR = 32%nat ->
  sigma_run_ok (dil_x X att fuel) h rm ruI ruR idI idR ssid rI rR (snd (tape 0%nat)) (snd (tape 1%nat)) ->
  gen_main I rm = (M, Ms, rm') ->
  gen_user I ruI = (UI, skI, rI') -> gen_user I ruR = (UR, skR, rR') ->
  ik_extract I re1 Ms idI UI = (cI, re1') -> ik_extract I re2 Ms idR UR = (cR, re2') ->
  agrees_at I 4 M idI idR cI cR skI skR ssid rI rR tape.
Proof.
  intros P0 X att fuel bs bv h BO I rm ruI ruR idI idR ssid rI rR tape M Ms rm' UI skI rI' UR skR rR' re1 re2 re1' re2' cI cR BI BR BS LI LR RUN.
  apply (mixed_run_ok X att fuel bs bv h _ _ _ _ _ _ _ _ _ _ BO) in RUN.
  exact (sigma_dil_agrees_at P0 (dil_mixed X att fuel bs bv) h (dil_mixed_ok X att fuel bs bv BO) rm ruI ruR idI idR ssid rI rR tape M Ms rm' UI skI rI' UR skR rR' re1 re2 re1' re2' cI cR BI BR BS LI LR RUN).
Qed.
Theorem latke_mixed_agreement : forall P0 X att fuel bs bv h, builds_ok bs bv ->
  let P := with_dilithium P0 (dil_mixed X att fuel bs bv) in let I := IdSigmaR Dilithium2 P h in let K := CakePake P h in
  forall pw idI idR rgI rgR ssid peerI peerR rI rR tape,
  is_bytes idI -> is_bytes idR -> is_bytes ssid -> List.length idI = 32%nat -> List.length idR = 32%nat ->
  peers_match idI idR peerI peerR ->
  kem_ok h (os_pake (snd (tape 0%nat))) (os_pake (snd (tape 1%nat))) ->
  sigma_run_ok (dil_x X att fuel) h (p_chacha12 P0 (hash256 P0 pw)) rgI rgR idI idR ssid
    (fst (tape 2%nat)) (fst (tape 3%nat)) (os_ibke (snd (tape 2%nat))) (os_ibke (snd (tape 3%nat))) ->
  exists sI rI' sR rR' outs fI fR key,
    latke_new I K rI ssid (gen_pwfile P I rgI pw idI) Initiator peerI = Ret (sI, rI') /\
    latke_new I K rR ssid (gen_pwfile P I rgR pw idR) Responder peerR = Ret (sR, rR') /\
    honest_run (latke_machine P I K) (7 + 1) tape sI sR = Res Completed outs fI fR /\
    latke_done I K fI = true /\ latke_done I K fR = true /\
    latke_fin P I K fI = Ret (idR, key) /\ latke_fin P I K fR = Ret (idI, key) /\ List.length key = 32%nat.
Proof.
  intros P0 X att fuel bs bv h BO P I K pw idI idR rgI rgR ssid peerI peerR rI rR tape BI BR BS LI LR PM OK RUN.
  apply (mixed_run_ok X att fuel bs bv h _ _ _ _ _ _ _ _ _ _ BO) in RUN.
  exact (latke_dil_at P0 (dil_mixed X att fuel bs bv) h (dil_mixed_ok X att fuel bs bv BO) pw idI idR rgI rgR ssid peerI peerR rI rR tape BI BR BS LI LR PM OK RUN).
Qed.
(** ** Non-vacuity *)
(** Signatures of even-length messages by the AVX2 build, the others by the CLEAN build; the other
    way round for verification. *)
Definition some_bs (m sk : bytes) : option (AvxSign.ctx * bytes) :=
  if Nat.even (List.length m) then Some (AvxSignOk2.some_ctx, repeat 0 2420) else None.
Definition some_bv (sg m pk : bytes) : option AvxSign.ctx := if Nat.even (List.length m) then None else Some AvxSignOk2.some_ctx.
Example some_builds_ok : builds_ok some_bs some_bv.
Proof.
  split.
  - intros m sk. unfold some_bs. destruct (Nat.even (List.length m)); [|exact Logic.I]. split; [exact AvxSignOk2.some_ctx_ok|apply repeat_length].
  - intros sg m pk. unfold some_bv. destruct (Nat.even (List.length m)); [exact Logic.I|exact AvxSignOk2.some_ctx_ok].
Qed.
Example mixed_run_meets : exists h os0 os1, forall rm ruI ruR idI idR ssid rI rR,
  sigma_run_ok (dil_mixed DilWitness.toy_xof 1 300 some_bs some_bv) h rm ruI ruR idI idR ssid rI rR os0 os1.
Proof.
  destruct sigma_run_meets as (h & os0 & os1 & H). exists h, os0, os1. intros. apply mixed_run_ok; [exact some_builds_ok|]. apply H.
Qed.
