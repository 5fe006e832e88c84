(** * SigmaDil: ID-SIGMA-R and post-quantum LATKE with the modelled Dilithium2 (C62).

    In Crypto.v the signature schemes are arbitrary functions, and agreement (C26, C32) assumes
    that they are correct for all keys and messages.  Here the Dilithium2 functions of a [prims]
    are replaced by the model of the C code of /repo/pqcrypto, whose correctness is proved
    (C45, C61); what remains to be assumed of a run is that its three key generations and four
    signatures return, and that LightSaber decrypts. *)
From Coq Require Import ZArith List Lia Bool String.
From Verif Require Import Base SaberPoly SaberKem SaberVec SaberDec SaberDec2 SaberFacts SaberSpec PropsSaber Crypto Symmetric PropsSym Driver Pakes PropsPake
  Ibkes IbkeSpec PropsSigDh PropsSigma Eue Latke LatkeSim PropsLatke PropsLatke2.
From Verif Require DilArith DilPoly DilSign DilProps DilSpec DilWitness DilShake DilShake2.
Import ListNotations.
Open Scope Z_scope.
Local Opaque DilShake2.keypair_c DilShake2.sign_c DilShake2.verify_c DilSign.keypair_det DilSign.sign_signature DilSign.verify_signature DilShake.fips_xof.
Notation crun := DilArith.crun.
Notation CRet := DilArith.CRet.
Notation CFuel := DilArith.CFuel.

(** An implementation of Dilithium2 as the wrapper calls it (pqcrypto-dilithium/src/dilithium2.rs
    177-192, 323-341, 359-386): key pair from 32 coins, signature of a message, verification. *)
Record dil_impl := {
  d_keypair : bytes -> crun (bytes * bytes);
  d_sign : bytes -> bytes -> crun bytes;              (* message, secret key *)
  d_verify : bytes -> bytes -> bytes -> crun bool     (* signature, message, public key *)
}.
(** The C code, with budgets for its loops: [att] attempts of the signer, [fuel] refills of a
    sampler. *)
Definition dil_c (att fuel : nat) : dil_impl :=
  {| d_keypair := DilShake2.keypair_c fuel; d_sign := DilShake2.sign_c att fuel; d_verify := DilShake2.verify_c fuel |}.
(** The same code on top of an arbitrary extendable-output function. *)
Definition dil_x (X : DilPoly.xof) (att fuel : nat) : dil_impl :=
  {| d_keypair := DilSign.keypair_det fuel X; d_sign := DilSign.sign_signature att fuel X;
     d_verify := DilSign.verify_signature fuel X |}.

(** What a call that returned gave; a call that did not return is given an arbitrary value (the
    theorems below say nothing about such runs). *)
Definition given {A : Type} (d : A) (x : crun A) : A := match x with DilArith.CRet a => a | _ => d end.
Definition stream_of (b : bytes) : rng := fun i => nth i b 0.
(** [P] with its Dilithium2 replaced by [D]. *)
Definition with_dilithium (P : prims) (D : dil_impl) : prims := {|
  p_hash256 := p_hash256 P; p_hash512 := p_hash512 P; p_hmac := p_hmac P; p_expand := p_expand P; p_extract := p_extract P;
  p_chacha20 := p_chacha20 P; p_chacha12 := p_chacha12 P; p_deck := p_deck P;
  p_sig_pk := fun s c => match s with Dilithium2 => stream_of (fst (given ([], []) (d_keypair D c))) | Ed25519 => p_sig_pk P Ed25519 c end;
  p_sig_sk := fun s c => match s with Dilithium2 => stream_of (snd (given ([], []) (d_keypair D c))) | Ed25519 => p_sig_sk P Ed25519 c end;
  p_sign := fun s sk m => match s with Dilithium2 => stream_of (given [] (d_sign D m sk)) | Ed25519 => p_sign P Ed25519 sk m end;
  p_verify := fun s pk m sg => match s with Dilithium2 => given false (d_verify D sg m pk) | Ed25519 => p_verify P Ed25519 pk m sg end;
  p_pk_valid := fun s pk => match s with Dilithium2 => true | Ed25519 => p_pk_valid P Ed25519 pk end;
  p_x_pub := p_x_pub P; p_x_dh := p_x_dh P |}.

(** A correct implementation: sizes, and what was signed verifies. *)
Definition dil_impl_ok (D : dil_impl) : Prop :=
  (forall coins pk sk, is_bytes coins -> d_keypair D coins = CRet (pk, sk) ->
     List.length pk = 1312%nat /\ is_bytes pk /\ List.length sk = 2560%nat /\ is_bytes sk) /\
  (forall coins pk sk m sg, is_bytes coins -> is_bytes m -> d_keypair D coins = CRet (pk, sk) -> d_sign D m sk = CRet sg ->
     List.length sg = 2420%nat /\ is_bytes sg /\ d_verify D sg m pk = CRet true).
Theorem dil_c_ok : forall att fuel, dil_impl_ok (dil_c att fuel).
Proof.
  intros att fuel. split.
  - intros coins pk sk B H. cbn [dil_c d_keypair] in H. rewrite DilShake2.keypair_fips in H by exact B.
    destruct (DilProps.dil_keypair_sizes _ _ _ _ _ H) as [L1 L2]. destruct (DilShake2.keypair_bytes _ _ _ _ _ H) as [B1 B2]. auto.
  - intros coins pk sk m sg B BM H S. cbn [dil_c d_keypair d_sign d_verify] in *.
    pose proof (DilShake2.dilithium2_complete fuel att fuel fuel coins pk sk m sg B BM H S (le_n _)) as V.
    rewrite DilShake2.keypair_fips in H by exact B.
    destruct (DilProps.dil_keypair_sizes _ _ _ _ _ H) as [_ L2]. destruct (DilShake2.keypair_bytes _ _ _ _ _ H) as [_ B2].
    rewrite DilShake2.sign_fips in S by assumption.
    split; [exact (proj1 (DilProps.dil_signature_shape _ _ _ _ _ _ L2 S))|]. split; [exact (DilShake2.sign_bytes _ _ _ _ _ _ L2 S)|exact V].
Qed.
Theorem dil_x_ok : forall X att fuel, dil_impl_ok (dil_x X att fuel).
Proof.
  intros X att fuel. split.
  - intros coins pk sk B H. cbn [dil_x d_keypair] in H.
    destruct (DilProps.dil_keypair_sizes _ _ _ _ _ H) as [L1 L2]. destruct (DilShake2.keypair_bytes _ _ _ _ _ H) as [B1 B2]. auto.
  - intros coins pk sk m sg B BM H S. cbn [dil_x d_keypair d_sign d_verify] in *.
    destruct (DilProps.dil_keypair_sizes _ _ _ _ _ H) as [_ L2].
    split; [exact (proj1 (DilProps.dil_signature_shape _ _ _ _ _ _ L2 S))|]. split; [exact (DilShake2.sign_bytes _ _ _ _ _ _ L2 S)|].
    exact (DilProps.dil_complete fuel att fuel fuel X coins pk sk m sg H S (le_n _)).
Qed.

Lemma bytes_of_stream : forall n b, List.length b = n -> is_bytes b -> bytes_of n (stream_of b) = b.
Proof.
  intros n b L B. unfold bytes_of, draw, stream_of. cbn [fst]. subst n. apply (nth_ext _ _ 0 0).
  - rewrite map_length, seq_length. reflexivity.
  - intros i Hi. rewrite map_length, seq_length in Hi.
    rewrite (nth_indep _ 0 (u8 (nth 0 b 0))) by (rewrite map_length, seq_length; exact Hi).
    rewrite (map_nth (fun j => u8 (nth j b 0))). rewrite seq_nth by exact Hi. cbn [Nat.add].
    unfold u8. unfold is_bytes in B. rewrite Forall_forall in B. pose proof (B _ (nth_In b 0 Hi)) as X. unfold is_byte in X.
    apply Z.mod_small. lia.
Qed.

(** ** One run *)
(** Everything Dilithium2 and LightSaber do in an honest run of ID-SIGMA-R returns, and
    LightSaber decrypts.  [rm], [ruI], [ruR]: the randomness of the main key and of the users'
    keys; [rI], [rR]: that of new_session, which draws the 32-byte nonces; [os0], [os1]: the
    operating system's randomness in the first two calls of run.
    The main key signs the id and the public key of each user (the certificate being id, key
    and signature); then each user signs the transcript and its certificate. *)
Definition sigma_run_ok (D : dil_impl) (h : saber_prims) (rm ruI ruR : rng) (idI idR ssid : bytes) (rI rR os0 os1 : rng) : Prop :=
  exists mpk msk upkI uskI upkR uskR csI csR kpk ksk ro ss ct ro' sA sB,
    d_keypair D (bytes_at rm 0 32) = CRet (mpk, msk) /\
    d_keypair D (bytes_at ruI 0 32) = CRet (upkI, uskI) /\
    d_keypair D (bytes_at ruR 0 32) = CRet (upkR, uskR) /\
    d_sign D (idI ++ upkI) msk = CRet csI /\
    d_sign D (idR ++ upkR) msk = CRet csR /\
    keygen_ind_cpa h LightSaber os0 = (kpk, ksk, ro) /\
    encapsulate_ind_cpa h LightSaber os1 kpk = (ss, ct, ro') /\
    decapsulate_ind_cpa LightSaber ct ksk = ss /\
    d_sign D ([0] ++ bytes_at rR 0 32 ++ ssid ++ pk_to_bytes kpk ++ ct ++ (idI ++ upkI ++ csI)) uskI = CRet sA /\
    d_sign D ([1] ++ bytes_at rI 0 32 ++ ssid ++ ct ++ pk_to_bytes kpk ++ (idR ++ upkR ++ csR)) uskR = CRet sB.

Local Opaque indcpa_keypair indcpa_enc indcpa_dec.
Lemma bytes_at_bytes : forall r o n, is_bytes (bytes_at r o n).
Proof. intros. apply bytes_at_ok. Qed.
Lemma kem_key_bytes : forall h os pk sk ro, keygen_ind_cpa h LightSaber os = (pk, sk, ro) -> is_bytes (pk_to_bytes pk).
Proof.
  intros h os pk sk ro H. rewrite keygen_cpa_eq in H.
  assert (W : wf_pk LightSaber (fst (indcpa_keypair h LightSaber (bytes_at os 0 32) (bytes_at os 32 32)))).
  { apply keypair_wf; try apply bytes_at_ok. exact ps_light. }
  destruct (indcpa_keypair h LightSaber (bytes_at os 0 32) (bytes_at os 32 32)) as [pk' sk']. cbn [fst] in W.
  injection H as <- _ _. exact (pk_to_bytes_bytes LightSaber _ W).
Qed.
Lemma kem_ct_bytes : forall h os pk ss ct ro, encapsulate_ind_cpa h LightSaber os pk = (ss, ct, ro) -> is_bytes ct.
Proof.
  intros h os pk ss ct ro H. rewrite encaps_cpa_eq in H.
  set (c := indcpa_enc h LightSaber (bytes_at os 0 32) (bytes_at os 32 32) pk) in H.
  assert (B : is_bytes c) by exact (proj2 (enc_length h LightSaber (bytes_at os 0 32) (bytes_at os 32 32) pk ps_light)). clearbody c.
  apply (f_equal (fun x => snd (fst x))) in H. cbn [fst snd] in H. subst. exact B.
Qed.
Local Opaque bytes_of INDCPA_PUBLICKEYBYTES BYTES_CCA_DEC keygen_ind_cpa encapsulate_ind_cpa decapsulate_ind_cpa indcpa_pk_from_bytes pk_to_bytes.
Section Run.
Variables (P0 : prims) (D : dil_impl) (h : saber_prims).
Hypothesis OKD : dil_impl_ok D.
Let P := with_dilithium P0 D.
Let SI := IdSigmaR Dilithium2 P h.
Lemma wd_keygen : forall r pk sk, d_keypair D (bytes_at r 0 32) = CRet (pk, sk) ->
  exists r', sig_keygen P Dilithium2 r = (pk, sk, r').
Proof.
  intros r pk sk H. destruct (proj1 OKD _ _ _ (bytes_at_bytes r 0 32) H) as (L1 & B1 & L2 & B2).
  unfold sig_keygen. destruct (draw 32 r) as [coins r1] eqn:E. exists r1.
  assert (coins = bytes_at r 0 32) as -> by (change (bytes_at r 0 32) with (fst (draw 32 r)); rewrite E; reflexivity).
  unfold P. cbn [with_dilithium p_sig_pk p_sig_sk]. rewrite H. cbn [given fst snd].
  rewrite (bytes_of_stream (pk_len Dilithium2) pk L1 B1), (bytes_of_stream (sk_len Dilithium2) sk L2 B2). reflexivity.
Qed.
Lemma wd_sign : forall r pk sk m sg, is_bytes m -> d_keypair D (bytes_at r 0 32) = CRet (pk, sk) -> d_sign D m sk = CRet sg ->
  sign P Dilithium2 sk m = sg /\ verify P Dilithium2 pk m sg = true /\ List.length sg = sig_len Dilithium2 /\ is_bytes sg.
Proof.
  intros r pk sk m sg BM HK HS. destruct (proj2 OKD _ _ _ _ _ (bytes_at_bytes r 0 32) BM HK HS) as (L & B & V).
  unfold sign, verify, P. cbn [with_dilithium p_sign p_verify]. rewrite HS, V. cbn [given].
  rewrite (bytes_of_stream (sig_len Dilithium2) sg L B). auto.
Qed.
Lemma wd_enrol : forall rm mpk msk ru upk usk id cs M Ms rm' U Us ru' re cert re',
  d_keypair D (bytes_at rm 0 32) = CRet (mpk, msk) -> d_keypair D (bytes_at ru 0 32) = CRet (upk, usk) ->
  is_bytes id -> List.length id = 32%nat -> d_sign D (id ++ upk) msk = CRet cs ->
  gen_main SI rm = (M, Ms, rm') -> gen_user SI ru = (U, Us, ru') -> ik_extract SI re Ms id U = (cert, re') ->
  M = (Dilithium2, mpk) /\ Us = (Dilithium2, usk) /\ cert = SmCert id (Dilithium2, upk) (Dilithium2, cs) /\
  sm_cert_wf P Dilithium2 cert /\ sm_cert_valid P M cert = Ret true.
Proof.
  intros rm mpk msk ru upk usk id cs M Ms rm' U Us ru' re cert re' HM HU BI LI HS GM GU EX.
  destruct (wd_keygen _ _ _ HM) as (r1 & KM). destruct (wd_keygen _ _ _ HU) as (r2 & KU).
  unfold SI in GM, GU, EX. cbn [IdSigmaR gen_main gen_user ik_extract] in GM, GU, EX. unfold sm_gen in GM, GU. unfold sm_extract in EX.
  rewrite KM in GM. rewrite KU in GU. injection GM as <- <- _. injection GU as <- <- _. injection EX as <- _.
  destruct (proj1 OKD _ _ _ (bytes_at_bytes ru 0 32) HU) as (L1 & B1 & _).
  assert (BM : is_bytes (id ++ upk)) by (apply is_bytes_app; auto).
  destruct (wd_sign rm mpk msk (id ++ upk) cs BM HM HS) as (SE & V & LS & _).
  unfold t_sign. cbn [fst snd]. rewrite SE. split; [reflexivity|]. split; [reflexivity|]. split; [reflexivity|]. split.
  - unfold sm_cert_wf. cbn [smc_id smc_upk smc_sig fst snd]. split; [reflexivity|]. split; [reflexivity|]. split; [exact LI|].
    split; [exact L1|]. split; [exact LS|]. discriminate.
  - unfold sm_cert_valid, t_verify. cbn [smc_id smc_upk smc_sig fst snd scheme_eqb assert_]. rewrite V. reflexivity.
Qed.
Theorem sigma_dil_agrees_at : forall rm ruI ruR idI idR ssid rI rR tape M Ms rm' UI skI rI' UR skR rR' re1 re2 re1' re2' cI cR,
  is_bytes idI -> is_bytes idR -> is_bytes ssid -> List.length idI = 32%nat -> List.length idR = 32%nat ->
  sigma_run_ok D h rm ruI ruR idI idR ssid rI rR (snd (tape 0%nat)) (snd (tape 1%nat)) ->
  gen_main SI rm = (M, Ms, rm') ->
  gen_user SI ruI = (UI, skI, rI') -> gen_user SI ruR = (UR, skR, rR') ->
  ik_extract SI re1 Ms idI UI = (cI, re1') -> ik_extract SI re2 Ms idR UR = (cR, re2') ->
  agrees_at SI 4 M idI idR cI cR skI skR ssid rI rR tape.
Proof.
  intros rm ruI ruR idI idR ssid rI rR tape M Ms rm' UI skI rI' UR skR rR' re1 re2 re1' re2' cI cR BI BR BS LI LR RUN GM GI GR EI ER.
  destruct RUN as (mpk & msk & upkI & uskI & upkR & uskR & csI & csR & kpk & ksk & ro & ss & ct & ro' & sA & sB &
    HM & HI & HR & SCI & SCR & KG & KE & KD & SA & SB).
  destruct (wd_enrol _ _ _ _ _ _ _ _ _ _ _ _ _ _ _ _ _ HM HI BI LI SCI GM GI EI) as (EM & -> & CI & WI & VI).
  destruct (wd_enrol _ _ _ _ _ _ _ _ _ _ _ _ _ _ _ _ _ HM HR BR LR SCR GM GR ER) as (_ & -> & CR & WR & VR).
  destruct (proj1 OKD _ _ _ (bytes_at_bytes ruI 0 32) HI) as (_ & BPI & _). destruct (proj1 OKD _ _ _ (bytes_at_bytes ruR 0 32) HR) as (_ & BPR & _).
  destruct (wd_sign rm mpk msk (idI ++ upkI) csI) as (_ & _ & _ & BCI); auto; [apply is_bytes_app; auto|].
  destruct (wd_sign rm mpk msk (idR ++ upkR) csR) as (_ & _ & _ & BCR); auto; [apply is_bytes_app; auto|].
  pose proof (kem_key_bytes _ _ _ _ _ KG) as BK. pose proof (kem_ct_bytes _ _ _ _ _ _ KE) as BC.
  unfold SI.
  apply sigma_agrees_at; [rewrite EM; reflexivity|reflexivity|reflexivity|rewrite CI; reflexivity|rewrite CR; reflexivity|exact WI|exact WR|exact VI|exact VR| |].
  - unfold kem_ok. rewrite KG, KE. exact KD.
  - intros kpk2 ksk2 ro2 ss2 ct2 ro2' KG2 KE2.
    assert (kpk2 = kpk) as -> by congruence. assert (ct2 = ct) as -> by congruence. clear KG2 KE2. cbv zeta.
    unfold sm_transcript_a, sm_transcript_b. rewrite CI, CR. unfold sm_cert_to_bytes. cbn [smc_id smc_upk smc_sig snd].
    assert (B0 : is_bytes [0]) by (constructor; [unfold is_byte; lia|constructor]).
    assert (B1 : is_bytes [1]) by (constructor; [unfold is_byte; lia|constructor]).
    revert SA SB. set (tA := [0] ++ _). set (tB := [1] ++ _). intros SA SB.
    assert (BA : is_bytes tA) by (unfold tA; rewrite !is_bytes_app; auto 12 using bytes_at_bytes).
    assert (BB : is_bytes tB) by (unfold tB; rewrite !is_bytes_app; auto 12 using bytes_at_bytes). clearbody tA tB.
    destruct (wd_sign ruI upkI uskI tA sA BA HI SA) as (E1 & V1 & _). destruct (wd_sign ruR upkR uskR tB sB BB HR SB) as (E2 & V2 & _).
    unfold t_verify, t_sign. cbn [fst snd scheme_eqb assert_]. rewrite E1, V1, E2, V2. auto.
Qed.
End Run.

(** ** C62 *)
(** ID-SIGMA-R with the C code of Dilithium2: for all users, ids, ssids and randomness for which
    everything returns and LightSaber decrypts, the sessions agree in four messages. *)
Theorem sigma_dilithium_agreement : forall P0 att fuel h,
  let I := IdSigmaR Dilithium2 (with_dilithium P0 (dil_c att fuel)) h in
  forall rm ruI ruR idI idR ssid rI rR tape M Ms rm' UI skI rI' UR skR rR' re1 re2 re1' re2' cI cR,
  is_bytes idI -> is_bytes idR -> is_bytes ssid -> List.length idI = 32%nat -> List.length idR = 32%nat ->
  sigma_run_ok (dil_c att fuel) h rm ruI ruR idI idR ssid rI rR (snd (tape 0%nat)) (snd (tape 1%nat)) ->
  gen_main I rm = (M, Ms, rm') ->
  gen_user I ruI = (UI, skI, rI') -> gen_user I ruR = (UR, skR, rR') ->
  ik_extract I re1 Ms idI UI = (cI, re1') -> ik_extract I re2 Ms idR UR = (cR, re2') ->
  agrees_at I 4 M idI idR cI cR skI skR ssid rI rR tape.
Proof. intros P0 att fuel h. exact (sigma_dil_agrees_at P0 (dil_c att fuel) h (dil_c_ok att fuel)). Qed.

(** A password file holds what the two key generations and the extraction give. *)
Lemma latke_dil_at : forall P0 D h, dil_impl_ok D -> 
  let P := with_dilithium P0 D in let I := IdSigmaR Dilithium2 P h in let K := CakePake P h in
  forall pw idI idR rgI rgR ssid peerI peerR rI rR tape,
  is_bytes idI -> is_bytes idR -> is_bytes ssid -> List.length idI = 32%nat -> List.length idR = 32%nat ->
  peers_match idI idR peerI peerR ->
  kem_ok h (os_pake (snd (tape 0%nat))) (os_pake (snd (tape 1%nat))) ->
  sigma_run_ok D h (p_chacha12 P0 (hash256 P0 pw)) rgI rgR idI idR ssid
    (fst (tape 2%nat)) (fst (tape 3%nat)) (os_ibke (snd (tape 2%nat))) (os_ibke (snd (tape 3%nat))) ->
  exists sI rI' sR rR' outs fI fR key,
    latke_new I K rI ssid (gen_pwfile P I rgI pw idI) Initiator peerI = Ret (sI, rI') /\
    latke_new I K rR ssid (gen_pwfile P I rgR pw idR) Responder peerR = Ret (sR, rR') /\
    honest_run (latke_machine P I K) (7 + 1) tape sI sR = Res Completed outs fI fR /\
    latke_done I K fI = true /\ latke_done I K fR = true /\
    latke_fin P I K fI = Ret (idR, key) /\ latke_fin P I K fR = Ret (idI, key) /\ List.length key = 32%nat.
Proof.
  intros P0 D h OKD P I K pw idI idR rgI rgR ssid peerI peerR rI rR tape BI BR BS LI LR PM OK RUN.
  assert (PF : forall rg id, exists M Ms rm' U sk r1 c r2,
    gen_main I (p_chacha12 P0 (hash256 P0 pw)) = (M, Ms, rm') /\ gen_user I rg = (U, sk, r1) /\ ik_extract I r1 Ms id U = (c, r2) /\
    gen_pwfile P I rg pw id = Pwfile M c sk).
  { intros rg id. unfold gen_pwfile. change (p_chacha12 P (hash256 P pw)) with (p_chacha12 P0 (hash256 P0 pw)).
    destruct (gen_main I (p_chacha12 P0 (hash256 P0 pw))) as [[M Ms] rm']. destruct (gen_user I rg) as [[U sk] r1] eqn:GU.
    destruct (ik_extract I r1 Ms id U) as [c r2] eqn:EX. exists M, Ms, rm', U, sk, r1, c, r2. auto 8. }
  destruct (PF rgI idI) as (M & Ms & rm' & UI & skI & r1 & cI & r2 & GM & GI & EI & PI).
  destruct (PF rgR idR) as (M2 & Ms2 & rm2 & UR & skR & r1' & cR & r2' & GM2 & GR & ER & PR).
  rewrite GM in GM2. injection GM2 as <- <- <-.
  assert (CID : forall r id U c r0, ik_extract I r Ms id U = (c, r0) -> cert_id I c = id).
  { intros r id U c r0 E. unfold I in E |- *. cbn [IdSigmaR ik_extract cert_id] in *. unfold sm_extract in E. injection E as <- _. reflexivity. }
  apply (latke_agreement_at P I K 2 4 _ pw idI idR rgI rgR ssid peerI peerR rI rR tape (cake_pake_correct P h) ltac:(lia) LI LR PM).
  - exact OK.
  - rewrite PI. cbn [pf_cert]. exact (CID _ _ _ _ _ EI).
  - rewrite PR. cbn [pf_cert]. exact (CID _ _ _ _ _ ER).
  - intros ms LM. rewrite PI, PR. unfold inner_agrees. cbn [pf_mpk pf_cert pf_usk].
    refine (sigma_dil_agrees_at P0 D h OKD _ rgI rgR idI idR ssid _ _ _ M Ms rm' UI skI r1 UR skR r1' r1 r1' r2 r2' cI cR BI BR BS LI LR _ GM GI GR EI ER).
    unfold inner_tape. cbn [snd]. rewrite LM. exact RUN.
Qed.
(** Post-quantum LATKE (CAKE, then ID-SIGMA-R with the C code of Dilithium2): for all passwords,
    ids, ssids, peer models and randomness for which everything returns and LightSaber decrypts
    in both protocols, the run completes in seven calls, and each party obtains the other's id
    and the same 32-byte key. *)
Theorem latke_dilithium_agreement : forall P0 att fuel h,
  let P := with_dilithium P0 (dil_c att fuel) in let I := IdSigmaR Dilithium2 P h in let K := CakePake P h in
  forall pw idI idR rgI rgR ssid peerI peerR rI rR tape,
  is_bytes idI -> is_bytes idR -> is_bytes ssid -> List.length idI = 32%nat -> List.length idR = 32%nat ->
  peers_match idI idR peerI peerR ->
  kem_ok h (os_pake (snd (tape 0%nat))) (os_pake (snd (tape 1%nat))) ->
  sigma_run_ok (dil_c att fuel) h (p_chacha12 P0 (hash256 P0 pw)) rgI rgR idI idR ssid
    (fst (tape 2%nat)) (fst (tape 3%nat)) (os_ibke (snd (tape 2%nat))) (os_ibke (snd (tape 3%nat))) ->
  exists sI rI' sR rR' outs fI fR key,
    latke_new I K rI ssid (gen_pwfile P I rgI pw idI) Initiator peerI = Ret (sI, rI') /\
    latke_new I K rR ssid (gen_pwfile P I rgR pw idR) Responder peerR = Ret (sR, rR') /\
    honest_run (latke_machine P I K) (7 + 1) tape sI sR = Res Completed outs fI fR /\
    latke_done I K fI = true /\ latke_done I K fR = true /\
    latke_fin P I K fI = Ret (idR, key) /\ latke_fin P I K fR = Ret (idI, key) /\ List.length key = 32%nat.
Proof. intros P0 att fuel h. exact (latke_dil_at P0 (dil_c att fuel) h (dil_c_ok att fuel)). Qed.

(** What authenticates an id to a session that uses the C code of Dilithium2 (see C28: a done
    session accepted such a message): a certificate of the id whose signature the verifier of
    the C code accepts under the main key, and a signature on the transcript and the
    certificate that it accepts under the certified key; both valid as the specification of
    Dilithium demands. *)
Theorem sigma_dilithium_authentic : forall P0 att fuel mpk ek mk tr tag m id,
  let P := with_dilithium P0 (dil_c att fuel) in
  List.length mpk = 1312%nat -> is_bytes mpk -> is_bytes m -> is_bytes tr ->
  sm_authentic P (Dilithium2, mpk) ek mk tr tag m id ->
  exists sg upk csig, let cert := id ++ upk ++ csig in
    auth_decrypt P ek m = Ret (Ok (sg ++ hmac P mk ([tag] ++ id) ++ cert)) /\
    List.length id = 32%nat /\ List.length upk = 1312%nat /\ List.length csig = 2420%nat /\ List.length sg = 2420%nat /\
    DilShake2.verify_c fuel csig (id ++ upk) mpk = CRet true /\
    DilShake2.verify_c fuel sg (tr ++ cert) upk = CRet true /\
    DilSpec.valid_spec fuel DilShake.fips_xof csig (id ++ upk) mpk /\
    DilSpec.valid_spec fuel DilShake.fips_xof sg (tr ++ cert) upk.
Proof.
  intros P0 att fuel mpk ek mk tr tag m id P LM BM BMS BT (sg & upk & csig & H). cbv zeta in H. cbn [fst snd] in H.
  destruct H as (AD & L1 & L2 & L3 & L4 & V1 & V2).
  assert (BP : is_bytes (sg ++ hmac P mk ([tag] ++ id) ++ id ++ upk ++ csig)).
  { apply auth_decrypt_ok_inv in AD. destruct AD as [b [n [EM [_ ->]]]]. rewrite EM in BMS. 
    unfold stream_xor. apply xor_bytes_bytes; [|apply bytes_of_bytes]. rewrite !is_bytes_app in BMS. tauto. }
  rewrite !is_bytes_app in BP. destruct BP as (BS & _ & BI & BU & BC).
  assert (G : forall b, given false b = true -> b = CRet true) by (intros [[|]| |]; cbn; congruence).
  unfold verify, P in V1, V2. cbn [with_dilithium p_verify dil_c d_verify] in V1, V2. apply G in V1. apply G in V2.
  exists sg, upk, csig. cbv zeta. repeat (split; [assumption|]). 
  split; apply DilShake2.dilithium2_verify_spec; auto; rewrite ?is_bytes_app; auto.
Qed.

(** ** Non-vacuity *)
(** With the toy extendable-output function of DilWitness.v, every key generation and every
    signature returns; so whenever LightSaber decrypts the condition on a run is met, and there
    are runs in which it does. *)
Lemma toy_keypair : forall coins, List.length coins = 32%nat ->
  DilSign.keypair_det 300 DilWitness.toy_xof coins = CRet (DilWitness.w_pk, DilWitness.w_sk).
Proof.
  intros coins L. apply (DilProps.dil_keypair_mono 0); [lia|]. rewrite <- DilWitness.w_keypair.
  apply DilWitness.toy_keypair_any. exact L.
Qed.
Theorem sigma_run_ok_toy : forall h rm ruI ruR idI idR ssid rI rR os0 os1, kem_ok h os0 os1 ->
  sigma_run_ok (dil_x DilWitness.toy_xof 1 300) h rm ruI ruR idI idR ssid rI rR os0 os1.
Proof.
  intros h rm ruI ruR idI idR ssid rI rR os0 os1 K. unfold kem_ok in K. unfold sigma_run_ok.
  destruct (keygen_ind_cpa h LightSaber os0) as [[kpk ksk] ro]. destruct (encapsulate_ind_cpa h LightSaber os1 kpk) as [[ss ct] ro'] eqn:KE.
  destruct (DilWitness.w_sign (idI ++ DilWitness.w_pk)) as (csI & E1). destruct (DilWitness.w_sign (idR ++ DilWitness.w_pk)) as (csR & E2).
  destruct (DilWitness.w_sign ([0] ++ bytes_at rR 0 32 ++ ssid ++ pk_to_bytes kpk ++ ct ++ (idI ++ DilWitness.w_pk ++ csI))) as (sA & E3).
  destruct (DilWitness.w_sign ([1] ++ bytes_at rI 0 32 ++ ssid ++ ct ++ pk_to_bytes kpk ++ (idR ++ DilWitness.w_pk ++ csR))) as (sB & E4).
  exists DilWitness.w_pk, DilWitness.w_sk, DilWitness.w_pk, DilWitness.w_sk, DilWitness.w_pk, DilWitness.w_sk, csI, csR, kpk, ksk, ro, ss, ct, ro', sA, sB.
  cbn [dil_x d_keypair d_sign].
  split; [apply toy_keypair, bytes_at_ok|]. split; [apply toy_keypair, bytes_at_ok|]. split; [apply toy_keypair, bytes_at_ok|].
  split; [exact E1|]. split; [exact E2|]. split; [reflexivity|]. split; [exact KE|]. split; [exact K|]. split; [exact E3|exact E4].
Qed.
Example sigma_run_meets : exists h os0 os1, forall rm ruI ruR idI idR ssid rI rR,
  sigma_run_ok (dil_x DilWitness.toy_xof 1 300) h rm ruI ruR idI idR ssid rI rR os0 os1.
Proof.
  destruct cake_agreement_meets as (h & os0 & os1 & N). exists h, os0, os1. intros. apply sigma_run_ok_toy, kem_ok_of_noise, N.
Qed.
