(** * AllMixed: ID-SIGMA-R and post-quantum LATKE between machines of all three kinds (C91). *)
From Coq Require Import ZArith List Lia Bool String.
From Verif Require Import Base SaberPoly SaberKem SaberVec SaberDec SaberDec2 SaberFacts SaberSpec PropsSaber Crypto Symmetric PropsSym Driver Pakes PropsPake
  Ibkes IbkeSpec PropsSigDh PropsSigma Eue Latke LatkeSim PropsLatke PropsLatke2 SigmaDil.
From Verif Require DilArith DilPoly DilSign DilProps DilSpec DilWitness DilShake DilShake2 AvxSample AvxSignOk AvxSignOk2 AvxShake AvxShake2 A64Sample A64SignOk2 A64Props A64Fips A64Shake AllBuilds AllBuilds2.
Import ListNotations.
Open Scope Z_scope.
Local Opaque DilShake2.keypair_c DilShake2.sign_c DilShake2.verify_c DilShake.fips_xof AvxShake.sign_signature_avx_c AvxShake.verify_signature_avx_c
  A64Shake.sign_signature64_c A64Shake.verify_signature64_c AllBuilds.sign_of AllBuilds.verify_of.
Notation build := AllBuilds.build.
Notation six seed := (A64Sample.six_blocks_suffice DilShake.fips_xof seed).

(** pqcrypto-dilithium/src/dilithium2.rs 323-341, 359-386: each call of sign and verify runs the AVX2
    build if the machine that makes it has AVX2, the AArch64 build on an AArch64 machine with NEON, and the
    CLEAN build otherwise; key generation from coins is always the CLEAN build (177-192).  [bs m sk] says
    which build, in which state of registers and memory, a call signs with; [bv sg m pk] likewise for
    verification.  The C code down to its hash instructions.
    Simplification: two calls with the same arguments run the same build. *)
Definition dil_any (att fuel : nat) (bs : bytes -> bytes -> build) (bv : bytes -> bytes -> bytes -> build) : dil_impl :=
  {| d_keypair := DilShake2.keypair_c (S fuel);
     d_sign := fun m sk => AllBuilds.sign_of (bs m sk) att (S fuel) m sk;
     d_verify := fun sg m pk => AllBuilds.verify_of (bv sg m pk) (S fuel) sg m pk |}.
Definition arm (b : build) : Prop := match b with AllBuilds.Aarch64 _ _ => True | _ => False end.
(** Registers and memory have the right sizes, and an AArch64 machine is only given keys whose matrix
    comes from the six blocks it squeezes at first (C79). *)
Definition any_ok (bs : bytes -> bytes -> build) (bv : bytes -> bytes -> bytes -> build) : Prop :=
  (forall m sk, AllBuilds.build_ok (bs m sk) /\ (arm (bs m sk) -> six (firstn 32 sk))) /\
  (forall sg m pk, AllBuilds.build_ok (bv sg m pk) /\ (arm (bv sg m pk) -> six (firstn 32 pk))).

Lemma sign_any : forall b att f m sk, AllBuilds.build_ok b -> (arm b -> six (firstn 32 sk)) -> List.length sk = 2560%nat -> is_bytes m -> is_bytes sk ->
  AllBuilds.sign_of b att (S f) m sk = DilShake2.sign_c att (S f) m sk.
Proof.
  intros [|e yr sig0|e h] att f m sk Hb Six L BM BS; with_strategy transparent [AllBuilds.sign_of] (cbn [AllBuilds.sign_of AllBuilds.build_ok arm] in * ).
  - reflexivity.
  - destruct Hb as (He & Y & Ls). apply AvxShake2.avx_sign_c; assumption.
  - destruct Hb as (He & Hh). apply A64Shake.a64_sign_c; auto.
Qed.
Theorem dil_any_ok : forall att fuel bs bv, any_ok bs bv -> dil_impl_ok (dil_any att fuel bs bv).
Proof.
  intros att fuel bs bv [BS BV]. split.
  - intros coins pk sk B H. cbn [dil_any d_keypair] in H. exact (proj1 (dil_c_ok att (S fuel)) coins pk sk B H).
  - intros coins pk sk m sg B BM H S. cbn [dil_any d_keypair d_sign d_verify] in *.
    destruct (AllBuilds.keypair_c_facts _ _ _ _ B H) as (BP & Bs & LP & LS & R).
    destruct (BS m sk) as [Hb Six]. rewrite (sign_any _ att fuel m sk Hb Six LS BM Bs) in S.
    destruct (proj2 (dil_c_ok att (Datatypes.S fuel)) coins pk sk m sg B BM H S) as (L & BG & V). cbn [dil_c d_verify] in V.
    split; [exact L|]. split; [exact BG|]. destruct (BV sg m pk) as [Hv Sv]. clear BS BV Hb Six.
    destruct (bv sg m pk) as [|e yr sig0|e h]; with_strategy transparent [AllBuilds.verify_of] (cbn [AllBuilds.verify_of AllBuilds.build_ok arm] in * ).
    + exact V.
    + destruct Hv as (He & Y & _).
      exact (AvxShake2.avx_complete_c e yr (Datatypes.S fuel) att (Datatypes.S fuel) (Datatypes.S fuel) coins pk sk m sg He Y B BM H S (le_n _)).
    + destruct Hv as (He & Hh). rewrite (A64Shake.a64_verify_c e h fuel sg m pk He Hh LP BP BG BM (Sv Logic.I)). exact V.
Qed.
(** A run that returns on CLEAN returns with any choice of builds. *)
Theorem any_run_ok : forall att fuel bs bv h rm ruI ruR idI idR ssid rI rR os0 os1, any_ok bs bv ->
  is_bytes idI -> is_bytes idR -> is_bytes ssid ->
  sigma_run_ok (dil_c att (S fuel)) h rm ruI ruR idI idR ssid rI rR os0 os1 ->
  sigma_run_ok (dil_any att fuel bs bv) h rm ruI ruR idI idR ssid rI rR os0 os1.
Proof.
  intros att fuel bs bv h rm ruI ruR idI idR ssid rI rR os0 os1 [BS _] BI BR Bss R.
  assert (T : forall r pk sk m sg, DilShake2.keypair_c (S fuel) (bytes_at r 0 32) = CRet (pk, sk) -> is_bytes m ->
    d_sign (dil_c att (S fuel)) m sk = CRet sg -> d_sign (dil_any att fuel bs bv) m sk = CRet sg /\ is_bytes pk /\ is_bytes sg).
  { intros r pk sk m sg H BM S. destruct (AllBuilds.keypair_c_facts _ _ _ _ (bytes_at_bytes r 0 32) H) as (BP & Bs & LP & LS & _).
    destruct (proj2 (dil_c_ok att (Datatypes.S fuel)) _ pk sk m sg (bytes_at_bytes r 0 32) BM H S) as (_ & BG & _).
    split; [|auto]. cbn [dil_c dil_any d_sign] in *. destruct (BS m sk) as [Hb Six]. rewrite sign_any; assumption. }
  destruct R as (mpk & msk & upkI & uskI & upkR & uskR & csI & csR & kpk & ksk & ro & ss & ct & ro' & sA & sB & K1 & K2 & K3 & S1 & S2 & E1 & E2 & E3 & S3 & S4).
  cbn [dil_c d_keypair] in K1, K2, K3.
  destruct (AllBuilds.keypair_c_facts _ _ _ _ (bytes_at_bytes ruI 0 32) K2) as (BUI & _).
  destruct (AllBuilds.keypair_c_facts _ _ _ _ (bytes_at_bytes ruR 0 32) K3) as (BUR & _).
  pose proof (kem_key_bytes _ _ _ _ _ E1) as BK. pose proof (kem_ct_bytes _ _ _ _ _ _ E2) as BC.
  assert (A : forall a b, is_bytes a -> is_bytes b -> is_bytes (a ++ b)) by (intros; apply is_bytes_app; auto).
  destruct (T rm mpk msk (idI ++ upkI) csI K1 (A _ _ BI BUI) S1) as (T1 & _ & BG1).
  destruct (T rm mpk msk (idR ++ upkR) csR K1 (A _ _ BR BUR) S2) as (T2 & _ & BG2).
  assert (B0 : is_bytes [0] /\ is_bytes [1]) by (split; repeat constructor; unfold is_byte; lia). destruct B0 as [B0 B1].
  pose proof (bytes_at_bytes rR 0 32) as BrR. pose proof (bytes_at_bytes rI 0 32) as BrI.
  pose proof (T ruI upkI uskI _ sA K2 (A _ _ B0 (A _ _ BrR (A _ _ Bss (A _ _ BK (A _ _ BC (A _ _ BI (A _ _ BUI BG1))))))) S3) as (T3 & _).
  pose proof (T ruR upkR uskR _ sB K3 (A _ _ B1 (A _ _ BrI (A _ _ Bss (A _ _ BC (A _ _ BK (A _ _ BR (A _ _ BUR BG2))))))) S4) as (T4 & _).
  exists mpk, msk, upkI, uskI, upkR, uskR, csI, csR, kpk, ksk, ro, ss, ct, ro', sA, sB.
  split; [exact K1|]. split; [exact K2|]. split; [exact K3|]. split; [exact T1|]. split; [exact T2|].
  split; [exact E1|]. split; [exact E2|]. split; [exact E3|]. split; [exact T3|exact T4].
Qed.

(** ** Agreement *)
Theorem sigma_any_agreement : forall P0 att fuel bs bv h, any_ok bs bv ->
  let I := IdSigmaR Dilithium2 (with_dilithium P0 (dil_any att fuel bs bv)) h in
  forall rm ruI ruR idI idR ssid rI rR tape M Ms rm' UI skI rI' UR skR rR' re1 re2 re1' re2' cI cR,
  is_bytes idI -> is_bytes idR -> is_bytes ssid -> List.length idI = 32%nat -> List.length idR = 32%nat ->
  sigma_run_ok (dil_c att (S fuel)) h rm ruI ruR idI idR ssid rI rR (snd (tape 0%nat)) (snd (tape 1%nat)) ->
  gen_main I rm = (M, Ms, rm') ->
  gen_user I ruI = (UI, skI, rI') -> gen_user I ruR = (UR, skR, rR') ->
  ik_extract I re1 Ms idI UI = (cI, re1') -> ik_extract I re2 Ms idR UR = (cR, re2') ->
  agrees_at I 4 M idI idR cI cR skI skR ssid rI rR tape.
Proof.
  intros P0 att fuel bs bv h BO I rm ruI ruR idI idR ssid rI rR tape M Ms rm' UI skI rI' UR skR rR' re1 re2 re1' re2' cI cR BI BR BS LI LR RUN.
  apply (any_run_ok att fuel bs bv h _ _ _ _ _ _ _ _ _ _ BO BI BR BS) in RUN.
  exact (sigma_dil_agrees_at P0 (dil_any att fuel bs bv) h (dil_any_ok att fuel bs bv BO) rm ruI ruR idI idR ssid rI rR tape M Ms rm' UI skI rI' UR skR rR' re1 re2 re1' re2' cI cR BI BR BS LI LR RUN).
Qed.
(** Post-quantum LATKE between machines of any kinds, one kind per call. *)
Theorem latke_any_agreement : forall P0 att fuel bs bv h, any_ok bs bv ->
  let P := with_dilithium P0 (dil_any att fuel bs bv) in let I := IdSigmaR Dilithium2 P h in let K := CakePake P h in
  forall pw idI idR rgI rgR ssid peerI peerR rI rR tape,
  is_bytes idI -> is_bytes idR -> is_bytes ssid -> List.length idI = 32%nat -> List.length idR = 32%nat ->
  peers_match idI idR peerI peerR ->
  kem_ok h (os_pake (snd (tape 0%nat))) (os_pake (snd (tape 1%nat))) ->
  sigma_run_ok (dil_c att (S fuel)) h (p_chacha12 P0 (hash256 P0 pw)) rgI rgR idI idR ssid
    (fst (tape 2%nat)) (fst (tape 3%nat)) (os_ibke (snd (tape 2%nat))) (os_ibke (snd (tape 3%nat))) ->
  exists sI rI' sR rR' outs fI fR key,
    latke_new I K rI ssid (gen_pwfile P I rgI pw idI) Initiator peerI = Ret (sI, rI') /\
    latke_new I K rR ssid (gen_pwfile P I rgR pw idR) Responder peerR = Ret (sR, rR') /\
    honest_run (latke_machine P I K) (7 + 1) tape sI sR = Res Completed outs fI fR /\
    latke_done I K fI = true /\ latke_done I K fR = true /\
    latke_fin P I K fI = Ret (idR, key) /\ latke_fin P I K fR = Ret (idI, key) /\ List.length key = 32%nat.
Proof.
  intros P0 att fuel bs bv h BO P I K pw idI idR rgI rgR ssid peerI peerR rI rR tape BI BR BS LI LR PM OK RUN.
  apply (any_run_ok att fuel bs bv h _ _ _ _ _ _ _ _ _ _ BO BI BR BS) in RUN.
  exact (latke_dil_at P0 (dil_any att fuel bs bv) h (dil_any_ok att fuel bs bv BO) pw idI idR rgI rgR ssid peerI peerR rI rR tape BI BR BS LI LR PM OK RUN).
Qed.

(** ** What a session that ran on any builds accepted *)
(** An id is authenticated only by a certificate that the verifying build accepts under the main key and a
    signature on transcript and certificate that it accepts under the certified key; so both signatures
    carry the SHAKE256 hash chains of those keys and messages ([names], C90).  No premise on matrices. *)
Theorem sigma_any_authentic : forall P0 att fuel bs bv mpk ek mk tr tag m id, (forall sg m pk, AllBuilds.build_ok (bv sg m pk)) ->
  let P := with_dilithium P0 (dil_any att fuel bs bv) in
  List.length mpk = 1312%nat -> is_bytes mpk -> is_bytes m -> is_bytes tr ->
  sm_authentic P (Dilithium2, mpk) ek mk tr tag m id ->
  exists sg upk csig w w', let cert := id ++ upk ++ csig in
    auth_decrypt P ek m = Ret (Ok (sg ++ hmac P mk ([tag] ++ id) ++ cert)) /\
    List.length id = 32%nat /\ List.length upk = 1312%nat /\ List.length csig = 2420%nat /\ List.length sg = 2420%nat /\
    AllBuilds.verify_of (bv csig (id ++ upk) mpk) (S fuel) csig (id ++ upk) mpk = CRet true /\
    AllBuilds.verify_of (bv sg (tr ++ cert) upk) (S fuel) sg (tr ++ cert) upk = CRet true /\
    AllBuilds2.names DilShake.fips_xof csig (id ++ upk) mpk w /\
    AllBuilds2.names DilShake.fips_xof sg (tr ++ cert) upk w'.
Proof.
  intros P0 att fuel bs bv mpk ek mk tr tag m id BV P LM BM BMS BT (sg & upk & csig & H). cbv zeta in H. cbn [fst snd] in H.
  destruct H as (AD & L1 & L2 & L3 & L4 & V1 & V2).
  assert (BP : is_bytes (sg ++ hmac P mk ([tag] ++ id) ++ id ++ upk ++ csig)).
  { apply auth_decrypt_ok_inv in AD. destruct AD as [b [n [EM [_ ->]]]]. rewrite EM in BMS. 
    unfold stream_xor. apply xor_bytes_bytes; [|apply bytes_of_bytes]. rewrite !is_bytes_app in BMS. tauto. }
  rewrite !is_bytes_app in BP. destruct BP as (BS & _ & BI & BU & BC).
  assert (G : forall b, given false b = true -> b = CRet true) by (intros [[|]| |]; cbn; congruence).
  unfold verify, P in V1, V2. cbn [with_dilithium p_verify dil_any d_verify] in V1, V2. apply G in V1. apply G in V2.
  assert (B1 : is_bytes (id ++ upk)) by (rewrite !is_bytes_app; auto).
  assert (B2 : is_bytes (tr ++ id ++ upk ++ csig)) by (rewrite !is_bytes_app; auto).
  destruct (AllBuilds2.accepted_names _ _ csig (id ++ upk) mpk (BV csig (id ++ upk) mpk) LM BM BC B1 V1) as (_ & w & N1).
  destruct (AllBuilds2.accepted_names _ _ sg (tr ++ id ++ upk ++ csig) upk (BV sg (tr ++ id ++ upk ++ csig) upk) L2 BU BS B2 V2) as (_ & w' & N2).
  exists sg, upk, csig, w, w'. cbv zeta. auto 12.
Qed.

(** ** The premises are met *)
Definition some_any_bs (m sk : bytes) : build := if Nat.even (List.length m) then AllBuilds.Avx2 AvxSignOk2.some_ctx AvxShake2.some_yr (repeat 0 2420) else AllBuilds.Portable.
Definition some_any_bv (sg m pk : bytes) : build := if Nat.even (List.length m) then AllBuilds.Portable else AllBuilds.Avx2 AvxSignOk2.some_ctx AvxShake2.some_yr (repeat 0 2420).
Example some_any_ok : any_ok some_any_bs some_any_bv.
Proof.
  pose proof AllBuilds.builds_exist as (P & A & _).
  split; [intros m sk|intros sg m pk]; [unfold some_any_bs|unfold some_any_bv]; destruct (Nat.even (List.length m)); (split; [assumption|intros []]).
Qed.
(** An AArch64 machine for the keys whose matrix six blocks give, and portable ones for the rest. *)
Example some_arm_ok : forall good : bytes -> bool, (forall rho, good rho = true -> six rho) ->
  any_ok (fun _ sk => if good (firstn 32 sk) then AllBuilds.Aarch64 A64Props.some_ctx64 (A64Shake.some_hctx true) else AllBuilds.Portable)
         (fun _ _ pk => if good (firstn 32 pk) then AllBuilds.Aarch64 A64Props.some_ctx64 (A64Shake.some_hctx false) else AllBuilds.Portable).
Proof.
  intros good G. pose proof AllBuilds.builds_exist as (P & _ & A1 & A2).
  split; [intros m sk; destruct (good (firstn 32 sk)) eqn:E|intros sg m pk; destruct (good (firstn 32 pk)) eqn:E]; (split; [assumption|]);
    intros []; apply G; exact E.
Qed.
