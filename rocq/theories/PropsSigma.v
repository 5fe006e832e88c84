(** * PropsSigma: ID-SIGMA-R (C26, and its parts of C27-C31 and C37). *)
From Coq Require Import ZArith List Lia Bool String.
From Verif Require Import Base SaberPoly SaberKem SaberVec SaberDec SaberDec2 SaberFacts SaberSpec SaberWitness PropsSaber Crypto Symmetric PropsSym Driver Pakes
  PropsPake Ibkes IbkeSpec PropsSigDh PropsHmqv.
Import ListNotations.
Open Scope Z_scope.
Local Opaque bytes_of INDCPA_PUBLICKEYBYTES BYTES_CCA_DEC POLYVECCOMPRESSEDBYTES.
Local Opaque indcpa_keypair indcpa_enc indcpa_dec decapsulate_ind_cpa indcpa_pk_from_bytes pk_to_bytes.

(* ---------------------------------------------------------------- C27 *)
(** A certificate the types of the Rust code allow for the scheme. *)
Definition sm_cert_wf (P : prims) (ty : scheme) (c : sm_cert) : Prop :=
  fst (smc_upk c) = ty /\ fst (smc_sig c) = ty /\
  List.length (smc_id c) = 32%nat /\ List.length (snd (smc_upk c)) = pk_len ty /\
  List.length (snd (smc_sig c)) = sig_len ty /\ (ty = Ed25519 -> p_pk_valid P Ed25519 (snd (smc_upk c)) = true).
(** Decoding an encoded certificate gives it back, in 128 (Ed25519) or 3764 (Dilithium2) bytes. *)
Theorem sm_cert_roundtrip : forall P ty c, sm_cert_wf P ty c ->
  sm_cert_from_bytes P ty (sm_cert_to_bytes c) = Ret (Ok c) /\
  List.length (sm_cert_to_bytes c) = match ty with Ed25519 => 128 | Dilithium2 => 3764 end%nat.
Proof.
  intros P ty [id [t pk] [t' sg]] [T1 [T2 [L1 [L2 [L3 V]]]]]. cbn [smc_id smc_upk smc_sig fst snd] in *. subst t t'.
  assert (LN : List.length (sm_cert_to_bytes (SmCert id (ty, pk) (ty, sg))) = sm_cert_size ty).
  { unfold sm_cert_to_bytes, sm_cert_size. cbn [smc_id smc_upk smc_sig fst snd]. rewrite !app_length, L1, L2, L3. unfold ID_LEN. lia. }
  split; [|rewrite LN; destruct ty; reflexivity].
  unfold sm_cert_from_bytes. rewrite LN, Nat.eqb_refl. cbn [negb].
  unfold sm_cert_to_bytes. cbn [smc_id smc_upk smc_sig fst snd].
  rewrite split_at_app by exact L1. cbn [obind]. rewrite split_at_app by exact L2. cbn [obind].
  destruct ty.
  - rewrite L2, L3, Nat.eqb_refl, Nat.leb_refl. reflexivity.
  - rewrite ed_pk_ok by auto. cbn [obind]. unfold ed_sig_from_bytes. rewrite copy_exact_ok by exact L3. reflexivity.
Qed.
(** Whatever decodes is the encoding of a well-formed certificate. *)
Theorem sm_cert_decode_exact : forall P ty b c, sm_cert_from_bytes P ty b = Ret (Ok c) ->
  b = sm_cert_to_bytes c /\ sm_cert_wf P ty c.
Proof.
  intros P ty b c H. unfold sm_cert_from_bytes in H.
  destruct (List.length b =? sm_cert_size ty)%nat eqn:EL; cbn [negb] in H; [|discriminate H]. apply Nat.eqb_eq in EL.
  obi H. repeat match goal with X : split_at _ _ = Ret _ |- _ => apply split_at_inv in X; destruct X as [-> ?] end.
  unfold sm_cert_size, ID_LEN in *. rewrite !app_length in EL.
  destruct ty.
  - repeat match type of H with (if ?b then _ else _) = _ => destruct b; [discriminate H|] end. injection H as <-.
    unfold sm_cert_wf, sm_cert_to_bytes. cbn [smc_id smc_upk smc_sig fst snd]. repeat split; auto; [|discriminate]. lia.
  - obi H. injection H as <-.
    match goal with X : ed_pk_from_bytes _ _ = Ret _ |- _ => apply ed_pk_inv in X; destruct X as [-> [? ?]] end.
    match goal with X : ed_sig_from_bytes _ = Ret _ |- _ => apply copy_exact_inv in X; destruct X as [-> ?] end.
    unfold sm_cert_wf, sm_cert_to_bytes. cbn [smc_id smc_upk smc_sig fst snd]. repeat split; auto.
Qed.
(** A byte string of the wrong length is an error, never a panic. *)
Theorem sm_cert_wrong_length_rejected : forall P ty b,
  List.length b <> match ty with Ed25519 => 128 | Dilithium2 => 3764 end%nat ->
  sm_cert_from_bytes P ty b = Ret (Err SmInvalidLength).
Proof.
  intros P ty b H. unfold sm_cert_from_bytes.
  replace (sm_cert_size ty) with (match ty with Ed25519 => 128 | Dilithium2 => 3764 end)%nat by (destruct ty; reflexivity).
  rewrite (proj2 (Nat.eqb_neq _ _) H). reflexivity.
Qed.
(** Every byte string of the right length is a Dilithium2 certificate; it is an Ed25519 one
    exactly when its key is valid, and otherwise decoding panics. *)
Theorem sm_cert_decode_total : forall P b, List.length b = 3764%nat ->
  exists c, sm_cert_from_bytes P Dilithium2 b = Ret (Ok c).
Proof.
  intros P b L. unfold sm_cert_from_bytes. change (sm_cert_size Dilithium2) with 3764%nat.
  rewrite L, Nat.eqb_refl. cbn [negb]. change ID_LEN with 32%nat. change (pk_len Dilithium2) with 1312%nat.
  unfold split_at at 1. rewrite L. change (32 <=? 3764)%nat with true. cbn [obind].
  unfold split_at. rewrite skipn_length, L. change (1312 <=? 3764 - 32)%nat with true. cbn [obind].
  rewrite firstn_length, !skipn_length, L. change (Nat.min 1312 (3764 - 32) =? 1312)%nat with true.
  change (3764 - 32 - 1312 <=? sig_len Dilithium2)%nat with true. cbn [negb]. eexists. reflexivity.
Qed.

(* ---------------------------------------------------------------- enrolment *)
Lemma keygen_len : forall P ty r pk sk r', sig_keygen P ty r = (pk, sk, r') -> List.length pk = pk_len ty.
Proof.
  intros P ty r pk sk r' H. unfold sig_keygen in H. destruct (draw 32 r). injection H as <- _ _. apply bytes_of_length.
Qed.
Lemma sm_enrolled : forall ty P h rm mpk msk rm' id cert usk,
  gen_main (IdSigmaR ty P h) rm = (mpk, msk, rm') -> List.length id = 32%nat ->
  enrolled (IdSigmaR ty P h) msk id cert usk ->
  fst mpk = ty /\ fst usk = ty /\ smc_id cert = id /\ List.length (sm_cert_to_bytes cert) = sm_cert_size ty /\
  (sig_correct P ty -> sm_cert_wf P ty cert /\ sm_cert_valid P mpk cert = Ret true /\
     forall m, t_verify P (smc_upk cert) m (t_sign P usk m) = Ret true).
Proof.
  intros ty P h rm mpk msk rm' id cert usk GM L [ru [upk [ru' [re [re' [GU EX]]]]]].
  cbn [IdSigmaR gen_main gen_user ik_extract] in *. unfold sm_gen in GM, GU. unfold sm_extract in EX.
  destruct (sig_keygen P ty rm) as [[mp ms] r1] eqn:KM. destruct (sig_keygen P ty ru) as [[up us] r2] eqn:KU.
  injection GM as <- <- _. injection GU as <- <- _. injection EX as <- _.
  cbn [fst snd smc_id]. split; [reflexivity|]. split; [reflexivity|]. split; [reflexivity|]. split.
  - unfold sm_cert_to_bytes, sm_cert_size, t_sign. cbn [smc_id smc_upk smc_sig fst snd].
    rewrite !app_length, sign_length, L, (keygen_len _ _ _ _ _ _ KU). unfold ID_LEN. lia.
  - intro C. destruct (keygen_ok _ _ _ _ _ _ C KM) as [VM _]. destruct (keygen_ok _ _ _ _ _ _ C KU) as [VU [PV [PL _]]].
    unfold sm_cert_wf, sm_cert_valid, t_verify, t_sign. cbn [smc_id smc_upk smc_sig fst snd].
    assert (SE : scheme_eqb ty ty = true) by (destruct ty; reflexivity). rewrite SE. cbn [assert_]. rewrite VM.
    split; [|split; [reflexivity|intro m; rewrite VU; reflexivity]].
    split; [reflexivity|]. split; [reflexivity|]. split; [exact L|]. split; [exact PL|]. split; [apply sign_length|].
    intros ->. exact PV.
Qed.

(** The KEM public key sent by the initiator, as the responder decodes it. *)
Lemma light_reload : forall h seed noise, List.length seed = 32%nat -> is_bytes seed ->
  List.length noise = 32%nat -> is_bytes noise ->
  let pk := fst (indcpa_keypair h LightSaber seed noise) in
  List.length (pk_to_bytes pk) = 672%nat /\
  exists pk', indcpa_pk_from_bytes LightSaber (pk_to_bytes pk) = Ret pk' /\ pk_to_bytes pk' = pk_to_bytes pk /\
  forall m r, indcpa_enc h LightSaber m r pk' = indcpa_enc h LightSaber m r pk.
Proof.
  intros h seed noise L1 B1 L2 B2 pk.
  assert (W : wf_pk LightSaber pk) by (apply keypair_wf; auto; exact ps_light).
  destruct (indcpa_pk_reload h seed noise L1 B1 L2 B2) as [LP [pk' [E F]]]. fold pk in LP, E, F.
  split; [exact LP|]. exists pk'. split; [exact E|]. split; [|exact F].
  pose proof (pk_from_to LightSaber pk ps_light W) as X. unfold pk_from_bytes in X.
  rewrite (pk_to_bytes_length LightSaber _ ps_light W), Nat.eqb_refl, E in X. cbn [obind] in X. injection X as ->.
  apply (pk_to_bytes_mod LightSaber), W.
Qed.
Lemma keygen_len_light : forall h os pk sk ro, keygen_ind_cpa h LightSaber os = (pk, sk, ro) -> List.length (pk_to_bytes pk) = 672%nat.
Proof.
  intros h os pk sk ro H. rewrite keygen_cpa_eq in H.
  destruct (light_reload h (bytes_at os 0 32) (bytes_at os 32 32)) as [LP _]; [apply bytes_at_ok..|].
  destruct (indcpa_keypair h LightSaber (bytes_at os 0 32) (bytes_at os 32 32)) as [pk' sk']. injection H as <- _ _. exact LP.
Qed.
Lemma light_enc_length : forall h m r pk, List.length (indcpa_enc h LightSaber m r pk) = 736%nat.
Proof. intros. rewrite (proj1 (enc_length h LightSaber m r pk ps_light)). exact light_ct_bytes. Qed.
Lemma encaps_cpa_eq : forall h os q, encapsulate_ind_cpa h LightSaber os q =
  (bytes_at os 0 32, indcpa_enc h LightSaber (bytes_at os 0 32) (bytes_at os 32 32) q, fun i => os (32 + (32 + i))%nat).
Proof. reflexivity. Qed.

Lemma encaps_len_light : forall h os pk ss ct ro, encapsulate_ind_cpa h LightSaber os pk = (ss, ct, ro) -> List.length ct = 736%nat.
Proof.
  intros h os pk ss ct ro H. rewrite encaps_cpa_eq in H.
  set (c := indcpa_enc h LightSaber (bytes_at os 0 32) (bytes_at os 32 32) pk) in H.
  assert (L : List.length c = 736%nat) by apply light_enc_length. clearbody c. 
  apply (f_equal (fun x => snd (fst x))) in H. cbn [fst snd] in H. subst. exact L.
Qed.
(** The plaintext of a confirmation message parses into what was put in. *)
Lemma sm_parse_ok : forall P ty sg mac c, List.length sg = sig_len ty -> sm_cert_wf P ty c ->
  sm_parse P ty (sg ++ mac ++ sm_cert_to_bytes c) = Ret ((ty, sg), mac, sm_cert_to_bytes c, Ok c).
Proof.
  intros P ty sg mac c LS W. unfold sm_parse. rewrite app_assoc.
  destruct (sm_cert_roundtrip P ty c W) as [RT LC].
  rewrite split_last_app by (rewrite LC; destruct ty; reflexivity). cbn [obind].
  rewrite split_at_app by exact LS. cbn [obind]. unfold sm_sig_from_bytes. destruct ty.
  - rewrite LS, Nat.leb_refl. cbn [assert_ obind]. rewrite RT. reflexivity.
  - rewrite copy_exact_ok by exact LS. cbn [obind]. rewrite RT. reflexivity.
Qed.
Lemma sm_parse_inv : forall P ty pt sg mac certb c, sm_parse P ty pt = Ret (sg, mac, certb, Ok c) ->
  pt = snd sg ++ mac ++ certb /\ certb = sm_cert_to_bytes c /\ fst sg = ty /\ List.length (snd sg) = sig_len ty /\ sm_cert_wf P ty c.
Proof.
  intros P ty pt sg mac certb c H. unfold sm_parse in H. obi H.
  injection H as <- <- <- ->.
  repeat match goal with X : split_at _ _ = Ret _ |- _ => apply split_at_inv in X; destruct X as [-> ?] end.
  repeat match goal with X : split_last _ _ = Ret _ |- _ => apply split_last_inv in X; destruct X as [-> ?] end.
  match goal with X : sm_cert_from_bytes _ _ _ = Ret _ |- _ => apply sm_cert_decode_exact in X; destruct X as [-> W] end.
  match goal with X : sm_sig_from_bytes _ ?b = Ret ?t |- _ => assert (SS : t = (ty, b)) end.
  { match goal with X : sm_sig_from_bytes _ _ = Ret _ |- _ => unfold sm_sig_from_bytes in X; destruct ty; obi X end.
    - match goal with X : Ret _ = Ret _ |- _ => injection X as <- end. reflexivity.
    - match goal with X : copy_exact _ _ = Ret _ |- _ => apply copy_exact_inv in X; destruct X as [-> _] end.
      match goal with X : Ret _ = Ret _ |- _ => injection X as <- end. reflexivity. }
  subst. cbn [fst snd]. rewrite <- app_assoc. repeat split; auto; apply W.
Qed.

(* ---------------------------------------------------------------- C26 *)
(** id_sigma_r.rs 468-479, as a specification: the four keys of a shared secret. *)
Definition sm_out (P : prims) (ss : bytes) : bytes := expand P ss (str "output_key") 32.
Definition sm_mk (P : prims) (ss : bytes) : bytes := expand P ss (str "mac_key") 32.
Definition sm_ea (P : prims) (ss : bytes) : bytes := expand P ss (str "enc_key_a") 64.
Definition sm_eb (P : prims) (ss : bytes) : bytes := expand P ss (str "enc_key_b") 64.
Lemma sm_keys_ok : forall P ss, List.length ss = 32%nat -> sm_keys P ss = Ret (sm_out P ss, sm_mk P ss, sm_ea P ss, sm_eb P ss).
Proof. intros P ss L. unfold sm_keys. rewrite from_prk_ok by lia. reflexivity. Qed.
Lemma sm_keys_inv : forall P ss x, sm_keys P ss = Ret x -> x = (sm_out P ss, sm_mk P ss, sm_ea P ss, sm_eb P ss).
Proof.
  intros P ss x H. unfold sm_keys in H. obi H. match goal with X : from_prk _ = Ret _ |- _ => apply from_prk_inv in X; destruct X as [-> _] end.
  injection H as <-. reflexivity.
Qed.

Section Honest.
Variables (ty : scheme) (P : prims) (h : saber_prims).
(** The first two steps need nothing of the signatures or of the KEM. *)
Lemma sm_first_steps : forall mpk certI certR uskI uskR ssid nA nB os0 os1,
  List.length nA = 32%nat -> List.length nB = 32%nat ->
  exists kpk ksk kpk' ct,
    let ss := bytes_at os1 0 32 in
    let A1 := Sigma ssid (Some nA, None) mpk certI uskI (Some kpk) (Some ksk) None None None None None 2 false in
    let B1 := Sigma ssid (Some nA, Some nB) mpk certR uskR (Some kpk') None (Some ct) (Some (sm_mk P ss))
                (Some (sm_ea P ss, sm_eb P ss)) None (Some (sm_out P ss)) 3 false in
    (forall r, sm_run P h (Sigma ssid (Some nA, None) mpk certI uskI None None None None None None None 0 false) r os0 []
      = Ret (A1, Ok (Some (nA ++ pk_to_bytes kpk)), r)) /\
    (forall r, sm_run P h (Sigma ssid (None, Some nB) mpk certR uskR None None None None None None None 1 false) r os1 (nA ++ pk_to_bytes kpk)
      = Ret (B1, Ok (Some (nB ++ ct)), r)) /\
    List.length (pk_to_bytes kpk) = 672%nat /\ List.length ct = 736%nat /\ pk_to_bytes kpk' = pk_to_bytes kpk /\
    (kem_ok h os0 os1 <-> decapsulate_ind_cpa LightSaber ct ksk = ss) /\
    (exists ro ro', keygen_ind_cpa h LightSaber os0 = (kpk, ksk, ro) /\ encapsulate_ind_cpa h LightSaber os1 kpk = (ss, ct, ro')).
Proof.
  intros mpk certI certR uskI uskR ssid nA nB os0 os1 LA LB.
  destruct (light_reload h (bytes_at os0 0 32) (bytes_at os0 32 32)) as [LP [pk' [PK [PB EQ]]]]; [apply bytes_at_ok..|].
  destruct (indcpa_keypair h LightSaber (bytes_at os0 0 32) (bytes_at os0 32 32)) as [pk sk] eqn:KG. cbn [fst] in *.
  set (ct := indcpa_enc h LightSaber (bytes_at os1 0 32) (bytes_at os1 32 32) pk).
  assert (LC : List.length ct = 736%nat) by apply light_enc_length.
  specialize (EQ (bytes_at os1 0 32) (bytes_at os1 32 32)). fold ct in EQ.
  exists pk, sk, pk', ct. cbv zeta. split; [|split; [|split; [exact LP|split; [exact LC|split; [exact PB|split]]]]].
  - intro r. unfold sm_run. cbn [sm_step List.length Nat.eqb assert_]. rewrite keygen_cpa_eq, KG. reflexivity.
  - intro r. unfold sm_run. cbn [sm_step sm_nonces snd]. rewrite split_at_app by exact LA. cbn [obind]. rewrite PK. cbn [obind].
    rewrite encaps_cpa_eq, EQ. rewrite sm_keys_ok by apply bytes_at_ok. reflexivity.
  - unfold kem_ok. rewrite keygen_cpa_eq, KG, encaps_cpa_eq. fold ct. apply iff_refl.
  - do 2 eexists. rewrite keygen_cpa_eq, KG, encaps_cpa_eq. fold ct. split; reflexivity.
Qed.
(** Agreement of two sessions whose certificates verify and whose own signatures on the two
    transcripts of this very run verify. *)
Lemma sigma_agrees_at : forall mpk idI idR certI certR uskI uskR ssid rI rR tape,
  fst mpk = ty -> fst uskI = ty -> fst uskR = ty -> smc_id certI = idI -> smc_id certR = idR ->
  sm_cert_wf P ty certI -> sm_cert_wf P ty certR ->
  sm_cert_valid P mpk certI = Ret true -> sm_cert_valid P mpk certR = Ret true ->
  kem_ok h (snd (tape 0%nat)) (snd (tape 1%nat)) ->
  (forall kpk ksk ro ss ct ro', keygen_ind_cpa h LightSaber (snd (tape 0%nat)) = (kpk, ksk, ro) ->
    encapsulate_ind_cpa h LightSaber (snd (tape 1%nat)) kpk = (ss, ct, ro') ->
    let tA := sm_transcript_a (bytes_at rR 0 32) ssid kpk ct (sm_cert_to_bytes certI) in
    let tB := sm_transcript_b (bytes_at rI 0 32) ssid kpk ct (sm_cert_to_bytes certR) in
    t_verify P (smc_upk certI) tA (t_sign P uskI tA) = Ret true /\
    t_verify P (smc_upk certR) tB (t_sign P uskR tB) = Ret true) ->
  agrees_at (IdSigmaR ty P h) 4 mpk idI idR certI certR uskI uskR ssid rI rR tape.
Proof.
  intros mpk idI idR certI certR uskI uskR ssid rI rR tape TM TI TR II IR WI WR VI VR OK SG.
  unfold agrees_at. cbn [IdSigmaR ik_new]. unfold sm_new.
  destruct (draw 32 rI) as [nA rI'] eqn:DA. destruct (draw 32 rR) as [nB rR'] eqn:DB. cbn [fst first_step].
  assert (NA : nA = bytes_at rI 0 32) by (change (bytes_at rI 0 32) with (fst (draw 32 rI)); rewrite DA; reflexivity).
  assert (NB : nB = bytes_at rR 0 32) by (change (bytes_at rR 0 32) with (fst (draw 32 rR)); rewrite DB; reflexivity).
  rewrite <- NA, <- NB in SG. clear NA NB.
  apply draw_eq in DA. destruct DA as [LA _]. apply draw_eq in DB. destruct DB as [LB _].
  destruct (sm_first_steps mpk certI certR uskI uskR ssid nA nB (snd (tape 0%nat)) (snd (tape 1%nat)) LA LB) as
    [kpk [ksk [kpk' [ct [R0 [R1 [LP [LC [PB [KO [ro [ro' [KG KE]]]]]]]]]]]]].
  destruct (SG _ _ _ _ _ _ KG KE) as [SGI SGR]. clear SG KG KE.
  pose proof (proj1 KO OK) as KD. clear KO OK. revert R0 R1 KD.
  set (ss := bytes_at (snd (tape 1%nat)) 0 32).
  assert (LS : List.length ss = 32%nat) by apply bytes_at_ok. clearbody ss.
  set (A0 := Sigma ssid (Some nA, None) mpk certI uskI None None None None None None None 0 false).
  set (B0 := Sigma ssid (None, Some nB) mpk certR uskR None None None None None None None 1 false).
  set (A1 := Sigma ssid (Some nA, None) mpk certI uskI (Some kpk) (Some ksk) None None None None None 2 false).
  set (B1 := Sigma ssid (Some nA, Some nB) mpk certR uskR (Some kpk') None (Some ct) (Some (sm_mk P ss))
                (Some (sm_ea P ss, sm_eb P ss)) None (Some (sm_out P ss)) 3 false).
  intros R0 R1 KD.
  set (pa := snd (t_sign P uskI (sm_transcript_a nB ssid kpk ct (sm_cert_to_bytes certI))) ++ hmac P (sm_mk P ss) ([0] ++ idI) ++ sm_cert_to_bytes certI).
  set (pb := snd (t_sign P uskR (sm_transcript_b nA ssid kpk ct (sm_cert_to_bytes certR))) ++ hmac P (sm_mk P ss) ([1] ++ idR) ++ sm_cert_to_bytes certR).
  set (m2 := fst (auth_encrypt P (fst (tape 2%nat)) (sm_ea P ss) pa)).
  set (m3 := fst (auth_encrypt P (fst (tape 3%nat)) (sm_eb P ss) pb)).
  set (A2 := Sigma ssid (Some nA, Some nB) mpk certI uskI (Some kpk) (Some ksk) (Some ct) (Some (sm_mk P ss))
                (Some (sm_ea P ss, sm_eb P ss)) None (Some (sm_out P ss)) 4 false).
  assert (R2 : forall os, sm_run P h A1 (fst (tape 2%nat)) os (nB ++ ct) = Ret (A2, Ok (Some m2), snd (auth_encrypt P (fst (tape 2%nat)) (sm_ea P ss) pa))).
  { intro os. unfold sm_run, A1. cbn [sm_step]. rewrite split_at_app by exact LB. cbn [obind].
    unfold ciphertext_from_bytes, newtype_from_bytes. rewrite LC, light_ct_bytes. change (736 =? 736)%nat with true. cbn [negb assert_ obind sm_ksk unwrap].
    rewrite KD, sm_keys_ok by exact LS. cbn [obind sm_kpk unwrap sm_cert_ sm_ssid sm_sk]. rewrite II. fold pa.
    unfold m2. destruct (auth_encrypt P (fst (tape 2%nat)) (sm_ea P ss) pa) as [c r]. reflexivity. }
  assert (TB : sm_transcript_a nB ssid kpk' ct (sm_cert_to_bytes certI) = sm_transcript_a nB ssid kpk ct (sm_cert_to_bytes certI))
    by (unfold sm_transcript_a; rewrite PB; reflexivity).
  assert (TB' : sm_transcript_b nA ssid kpk' ct (sm_cert_to_bytes certR) = sm_transcript_b nA ssid kpk ct (sm_cert_to_bytes certR))
    by (unfold sm_transcript_b; rewrite PB; reflexivity).
  assert (TS : forall usk m, fst usk = ty -> (ty, snd (t_sign P usk m)) = t_sign P usk m) by (intros usk m <-; reflexivity).
  assert (LSG : forall usk m, fst usk = ty -> List.length (snd (t_sign P usk m)) = sig_len ty)
    by (intros usk m <-; apply sign_length).
  assert (R3 : forall os, sm_run P h B1 (fst (tape 3%nat)) os m2 = Ret (sm_finish (sm_set_id B1 idI), Ok (Some m3), snd (auth_encrypt P (fst (tape 3%nat)) (sm_eb P ss) pb))).
  { intro os. unfold sm_run, B1. cbn [sm_step sm_enc unwrap obind sm_mpk]. unfold m2. rewrite auth_roundtrip. cbn [obind].
    rewrite TM. unfold pa. rewrite sm_parse_ok by (auto; apply LSG, TI). cbn [obind]. rewrite VI. cbn [negb obind sm_nonces fst snd unwrap sm_kpk sm_ct sm_ssid sm_mac].
    rewrite TB, TS by exact TI. rewrite SGI. cbn [obind negb]. rewrite II, beq_refl. cbn [negb sm_cert_ sm_sk].
    rewrite TB', IR. fold pb. unfold m3. destruct (auth_encrypt P (fst (tape 3%nat)) (sm_eb P ss) pb) as [c r]. reflexivity. }
  assert (R4 : forall r os, sm_run P h A2 r os m3 = Ret (sm_finish (sm_set_id A2 idR), Ok None, r)).
  { intros r os. unfold sm_run, A2. cbn [sm_step sm_enc unwrap obind sm_mpk]. unfold m3. rewrite auth_roundtrip. cbn [obind].
    rewrite TM. unfold pb. rewrite sm_parse_ok by (auto; apply LSG, TR). cbn [obind]. rewrite VR. cbn [negb obind sm_nonces fst snd unwrap sm_kpk sm_ct sm_ssid sm_mac].
    rewrite TS by exact TR. rewrite SGR. cbn [obind negb]. rewrite IR, beq_refl. reflexivity. }
  assert (N2 : m2 <> []) by (apply (nonempty_of_length _ (List.length pa + 43)); unfold m2; rewrite auth_encrypt_length; lia).
  assert (N3 : m3 <> []) by (apply (nonempty_of_length _ (List.length pb + 43)); unfold m3; rewrite auth_encrypt_length; lia).
  clearbody m2 m3.
  exists [nA ++ pk_to_bytes kpk; nB ++ ct; m2; m3], (sm_finish (sm_set_id A2 idR)), (sm_finish (sm_set_id B1 idI)), (sm_out P ss).
  split; [|split; [reflexivity|]].
  - unfold honest_run. apply (drive_I (ibke_machine (IdSigmaR ty P h)) _ _ _ _ _ A1).
    { reflexivity. } { cbn [m_run ibke_machine ik_run IdSigmaR]. rewrite R0. reflexivity. }
    apply (drive_R (ibke_machine (IdSigmaR ty P h)) _ _ _ _ _ B1).
    { reflexivity. } { cbn [m_run ibke_machine ik_run IdSigmaR opt_bytes]. change (shift tape 0%nat) with (tape 1%nat). rewrite R1. reflexivity. }
    apply (drive_I (ibke_machine (IdSigmaR ty P h)) _ _ _ _ _ A2).
    { reflexivity. } { cbn [m_run ibke_machine ik_run IdSigmaR opt_bytes]. change (shift (shift tape) 0%nat) with (tape 2%nat). rewrite R2. reflexivity. }
    apply (drive_R (ibke_machine (IdSigmaR ty P h)) _ _ _ _ _ (sm_finish (sm_set_id B1 idI))).
    { reflexivity. } { cbn [m_run ibke_machine ik_run IdSigmaR opt_bytes]. change (shift (shift (shift tape)) 0%nat) with (tape 3%nat). rewrite R3. reflexivity. }
    apply (drive_I (ibke_machine (IdSigmaR ty P h)) _ _ _ _ _ (sm_finish (sm_set_id A2 idR))).
    { reflexivity. } { cbn [m_run ibke_machine ik_run IdSigmaR opt_bytes]. rewrite R4. reflexivity. }
    apply drive_done_R. reflexivity.
  - split; [|cbn [IdSigmaR ik_done ik_fin sm_finish sm_set_id sm_done sm_id sm_key A2 B1 unwrap obind]; repeat (split; [reflexivity|]); apply expand_length].
    assert (NE : forall a (b : bytes), List.length a = 32%nat -> a ++ b <> []) by (intros [|x a] b H; discriminate).
    repeat constructor; auto.
Qed.
Theorem sigma_agreement : sig_correct P ty ->
  honest_agreement (IdSigmaR ty P h) 4 (fun tape => kem_ok h (snd (tape 0%nat)) (snd (tape 1%nat))).
Proof.
  intros C rm mpk msk rm' idI idR certI certR uskI uskR ssid rI rR tape GM LI LR EI ER OK.
  destruct (sm_enrolled ty P h rm mpk msk rm' idI certI uskI GM LI EI) as [TM [TI [II [LCI SI]]]]. destruct (SI C) as [WI [VI SGI]].
  destruct (sm_enrolled ty P h rm mpk msk rm' idR certR uskR GM LR ER) as [_ [TR [IR [LCR SR]]]]. destruct (SR C) as [WR [VR SGR]].
  apply sigma_agrees_at; try assumption. intros. split; [apply SGI|apply SGR].
Qed.
End Honest.

(* ---------------------------------------------------------------- C28 *)
(** A message that authenticates [id]: under the encryption key [ek] it decrypts to a
    signature, a MAC of the tag and the id under [mk], and a certificate of a key for [id] that
    verifies under the main key, with the signature of that key on the transcript [tr] and the
    certificate. *)
Definition sm_authentic (P : prims) (mpk : tagged) (ek mk tr : bytes) (tag : Z) (m id : bytes) : Prop :=
  exists sg upk csig, let cert := id ++ upk ++ csig in
    auth_decrypt P ek m = Ret (Ok (sg ++ hmac P mk ([tag] ++ id) ++ cert)) /\
    List.length id = 32%nat /\ List.length upk = pk_len (fst mpk) /\
    List.length csig = sig_len (fst mpk) /\ List.length sg = sig_len (fst mpk) /\
    verify P (fst mpk) (snd mpk) (id ++ upk) csig = true /\
    verify P (fst mpk) upk (tr ++ cert) sg = true.
Lemma sm_auth_of : forall P mpk ek mk tr tag m pt sg mac certb c,
  auth_decrypt P ek m = Ret (Ok pt) -> sm_parse P (fst mpk) pt = Ret (sg, mac, certb, Ok c) ->
  sm_cert_valid P mpk c = Ret true -> t_verify P (smc_upk c) (tr ++ certb) sg = Ret true ->
  beq (hmac P mk ([tag] ++ smc_id c)) mac = true ->
  sm_authentic P mpk ek mk tr tag m (smc_id c).
Proof.
  intros P [ty mp] ek mk tr tag m pt sg mac certb [id [t1 upk] [t2 csig]] D PA V S M.
  apply sm_parse_inv in PA. destruct PA as [-> [-> [T [LS [T1 [T2 [L1 [L2 [L3 _]]]]]]]]].
  cbn [fst snd smc_id smc_upk smc_sig] in *. subst t1 t2. apply beq_spec in M. subst mac.
  unfold sm_cert_valid, t_verify in V, S. cbn [fst snd smc_id smc_upk smc_sig] in *.
  assert (SE : scheme_eqb ty ty = true) by (destruct ty; reflexivity). rewrite T, SE in *. cbn [assert_] in *.
  injection V as V. injection S as S. exists (snd sg), upk, csig. cbn zeta. repeat split; auto.
Qed.

Ltac unw := repeat match goal with X : unwrap (Some _) = Ret _ |- _ => cbn [unwrap] in X; injection X as <- end.
Lemma ct_from_inv : forall I b ct, ciphertext_from_bytes I b = Ret (Ok ct) -> ct = b.
Proof.
  intros I b ct H. unfold ciphertext_from_bytes, newtype_from_bytes in H.
  destruct (_ =? _)%nat in H; cbn [assert_ negb obind] in H; congruence.
Qed.
Section Inv.
Variables (P : prims) (h : saber_prims) (ssid : bytes) (mpk : tagged) (cert : sm_cert) (usk : tagged) (n : bytes).
Let IM := ibke_machine (IdSigmaR (fst mpk) P h).
Definition sm_fixed (s : sigma) : Prop :=
  sm_ssid s = ssid /\ sm_mpk s = mpk /\ sm_cert_ s = cert /\ sm_sk s = usk.
(** What a session knows after the KEM: the transcript parts and the keys of [ss]. *)
Definition sm_known (kpk : pk_cpa) (nA nB ct ss : bytes) (s : sigma) : Prop :=
  sm_kpk s = Some kpk /\ sm_nonces s = (Some nA, Some nB) /\ sm_ct s = Some ct /\
  sm_mac s = Some (sm_mk P ss) /\ sm_enc s = Some (sm_ea P ss, sm_eb P ss) /\ sm_key s = Some (sm_out P ss).
Definition sm_inv_I (l : log IM) (s : sigma) : Prop :=
  sm_fixed s /\
  ((sm_step s = 0%nat /\ sm_done s = false /\ fst (sm_nonces s) = Some n /\ sm_key s = None) \/
   (exists os kpk ksk ro, keygen_ind_cpa h LightSaber os = (kpk, ksk, ro) /\
      In ([], Ok (Some (n ++ pk_to_bytes kpk))) l /\ sm_ksk s = Some ksk /\
      ((sm_step s = 2%nat /\ sm_done s = false /\ sm_kpk s = Some kpk /\ fst (sm_nonces s) = Some n /\ sm_key s = None) \/
       (exists nB ct o, List.length nB = 32%nat /\ In (nB ++ ct, Ok o) l /\
          let ss := decapsulate_ind_cpa LightSaber ct ksk in
          sm_known kpk n nB ct ss s /\
          ((sm_step s = 4%nat /\ sm_done s = false) \/
           (sm_step s = 6%nat /\ sm_done s = true /\ exists m id, In (m, Ok None) l /\ sm_id s = Some id /\
              sm_authentic P mpk (sm_eb P ss) (sm_mk P ss) ([1] ++ n ++ ssid ++ ct ++ pk_to_bytes kpk) 1 m id)))))).
Definition sm_inv_R (l : log IM) (s : sigma) : Prop :=
  sm_fixed s /\
  ((sm_step s = 1%nat /\ sm_done s = false /\ snd (sm_nonces s) = Some n /\ sm_key s = None) \/
   (exists os kpk nA pkb ss ct ro, List.length nA = 32%nat /\ indcpa_pk_from_bytes LightSaber pkb = Ret kpk /\
      encapsulate_ind_cpa h LightSaber os kpk = (ss, ct, ro) /\
      In (nA ++ pkb, Ok (Some (n ++ ct))) l /\ sm_known kpk nA n ct ss s /\
      ((sm_step s = 3%nat /\ sm_done s = false) \/
       (sm_step s = 5%nat /\ sm_done s = true /\ exists m o id, In (m, Ok o) l /\ sm_id s = Some id /\
          sm_authentic P mpk (sm_ea P ss) (sm_mk P ss) ([0] ++ n ++ ssid ++ pk_to_bytes kpk ++ ct) 0 m id)))).
Definition sm_inv (rl : role) := match rl with Initiator => sm_inv_I | Responder => sm_inv_R end.

Lemma sm_trans_a : forall nb kpk ct certb, sm_transcript_a nb ssid kpk ct certb = ([0] ++ nb ++ ssid ++ pk_to_bytes kpk ++ ct) ++ certb.
Proof. intros. unfold sm_transcript_a. rewrite <- !app_assoc. reflexivity. Qed.
Lemma sm_trans_b : forall na kpk ct certb, sm_transcript_b na ssid kpk ct certb = ([1] ++ na ++ ssid ++ ct ++ pk_to_bytes kpk) ++ certb.
Proof. intros. unfold sm_transcript_b. rewrite <- !app_assoc. reflexivity. Qed.

Lemma sm_inv_step : forall rl l s r os m s' o r', sm_inv rl l s -> sm_run P h s r os m = Ret (s', o, r') ->
  sm_inv rl (l ++ [(m, o)]) s' /\ sm_step s' = (match o with Ok _ => sm_step s + 2 | Err _ => sm_step s end)%nat.
Proof.
  intros rl l s r os m s' o r' H E. unfold sm_run in E.
  destruct rl; cbn [sm_inv] in *.
  - destruct H as [F H]. pose proof F as [F1 [F2 [F3 F4]]]. rewrite F1, F2, F3, F4 in E.
    destruct H as [[ST [D [NN KN]]]|[os0 [kpk [ksk [ro [KG [IN [SK [[ST [D [PK [NN KN]]]]|[nB [ct [o1 [LB [IN1 [KW [[ST D]|[ST [D _]]]]]]]]]]]]]]]]]]; rewrite ST in E.
    + rewrite NN in E. obi E. unw. injection E as <- <- <-. cbn [sm_step]. split; [|lia].
      split; [unfold sm_fixed; cbn; auto|]. right. destruct m; [|discriminate].
      do 4 eexists. split; [eassumption|]. cbn [sm_ksk]. split; [apply in_last|]. split; [reflexivity|]. left. cbn [sm_step sm_done sm_kpk sm_nonces sm_key]. repeat split; auto; lia.
    + obi E.
      match goal with X : split_at _ m = Ret _ |- _ => apply split_at_inv in X; destruct X as [-> LNB] end.
      match type of E with match ?c with _ => _ end = _ => destruct c as [ct|] eqn:EC end.
      2:{ injection E as <- <- <-. split; [|auto]. split; [exact F|]. right. exists os0, kpk, ksk, ro. split; [exact KG|]. split; [apply in_snoc, IN|]. split; [exact SK|]. left. auto. }
      rewrite SK, PK in E. obi E. unw.
      match goal with X : ciphertext_from_bytes _ _ = Ret _ |- _ => apply ct_from_inv in X; subst ct end.
      match goal with X : sm_keys _ _ = Ret _ |- _ => apply sm_keys_inv in X; injection X as -> -> -> -> end.
      injection E as <- <- <-. cbn [sm_step]. split; [|lia].
      split; [unfold sm_fixed; cbn; auto|]. right. exists os0, kpk, ksk, ro. cbn [sm_ksk].
      split; [exact KG|]. split; [apply in_snoc, IN|]. split; [reflexivity|]. right.
      do 3 eexists. split; [exact LNB|]. split; [apply in_last|]. cbn zeta. unfold sm_known. cbn [sm_kpk sm_nonces sm_ct sm_mac sm_enc sm_key sm_step sm_done].
      rewrite NN. split; [repeat split; auto|]. left. split; [lia|exact D].
    + cbn zeta in KW. pose proof KW as [K1 [K2 [K3 [K4 [K5 K6]]]]]. set (ss := decapsulate_ind_cpa LightSaber ct ksk) in *.
      rewrite K1, K2, K3, K4, K5 in E. cbn [unwrap obind fst snd] in E.
      assert (SAME : forall s'', sm_fixed s'' -> sm_ksk s'' = Some ksk -> sm_known kpk n nB ct ss s'' -> sm_step s'' = 4%nat -> sm_done s'' = false ->
                forall e, sm_inv_I (l ++ [(m, Err e)]) s'').
      { intros s'' F' SK' KW' ST' D' e. split; [exact F'|]. right. exists os0, kpk, ksk, ro. split; [exact KG|]. split; [apply in_snoc, IN|]. split; [exact SK'|].
        right. exists nB, ct, o1. split; [exact LB|]. split; [apply in_snoc, IN1|]. cbn zeta. split; [exact KW'|]. left. auto. }
      assert (SAME' : forall id e, sm_inv_I (l ++ [(m, Err e)]) (sm_set_id s id)) by (intros id e; apply SAME; auto).
      obi E. match type of E with match ?u with _ => _ end = _ => destruct u as [pt|ee] end.
      2:{ injection E as <- <- <-. split; [apply SAME; auto|auto]. }
      obi E. match type of E with match ?u with _ => _ end = _ => destruct u as [c|ee] end.
      2:{ injection E as <- <- <-. split; [apply SAME; auto|auto]. }
      obi E. match type of E with (if negb ?u then _ else _) = _ => destruct u end; cbn [negb] in E.
      2:{ injection E as <- <- <-. split; [apply SAME'|cbn [sm_set_id sm_step]; auto]. }
      obi E. match type of E with (if negb ?u then _ else _) = _ => destruct u end; cbn [negb] in E.
      2:{ injection E as <- <- <-. split; [apply SAME'|cbn [sm_set_id sm_step]; auto]. }
      match type of E with (if negb ?v then _ else _) = _ => destruct v eqn:B end; cbn [negb] in E.
      2:{ injection E as <- <- <-. split; [apply SAME'|cbn [sm_set_id sm_step]; auto]. }
      injection E as <- <- <-. cbn [sm_finish sm_set_id sm_step]. split; [|lia].
      split; [unfold sm_fixed; cbn; auto|]. right. exists os0, kpk, ksk, ro. cbn [sm_ksk].
      split; [exact KG|]. split; [apply in_snoc, IN|]. split; [exact SK|]. right.
      exists nB, ct, o1. split; [exact LB|]. split; [apply in_snoc, IN1|]. cbn zeta. fold ss. split; [unfold sm_known; cbn; auto 10|].
      right. cbn [sm_finish sm_set_id sm_step sm_done sm_id]. split; [lia|]. split; [reflexivity|]. exists m, (smc_id c). split; [apply in_last|]. split; [reflexivity|].
      subst. rewrite sm_trans_b in *. eapply sm_auth_of; eassumption.
    + discriminate E.
  - destruct H as [F H]. pose proof F as [F1 [F2 [F3 F4]]]. rewrite F1, F2, F3, F4 in E.
    destruct H as [[ST [D [NN KN]]]|[os0 [kpk [nA [pkb [ss [ct [ro [LA [PKB [EN [IN [KW [[ST D]|[ST [D _]]]]]]]]]]]]]]]]; rewrite ST in E.
    + rewrite NN in E. obi E. unw.
      match goal with X : split_at _ m = Ret _ |- _ => apply split_at_inv in X; destruct X as [-> LNB] end.
      match goal with X : sm_keys _ _ = Ret _ |- _ => apply sm_keys_inv in X; injection X as -> -> -> -> end.
      injection E as <- <- <-. cbn [sm_step]. split; [|lia].
      split; [unfold sm_fixed; cbn; auto|]. right. do 7 eexists. split; [exact LNB|]. split; [eassumption|]. split; [eassumption|]. split; [apply in_last|].
      unfold sm_known. cbn [sm_kpk sm_nonces sm_ct sm_mac sm_enc sm_key sm_step sm_done]. split; [repeat split; auto; rewrite NN; reflexivity|left; split; [lia|exact D]].
    + pose proof KW as [K1 [K2 [K3 [K4 [K5 K6]]]]].
      rewrite K1, K2, K3, K4, K5 in E. cbn [unwrap obind fst snd] in E.
      assert (SAME : forall s'', sm_fixed s'' -> sm_known kpk nA n ct ss s'' -> sm_step s'' = 3%nat -> sm_done s'' = false ->
                forall e, sm_inv_R (l ++ [(m, Err e)]) s'').
      { intros s'' F' KW' ST' D' e. split; [exact F'|]. right. exists os0, kpk, nA, pkb, ss, ct, ro. split; [exact LA|]. split; [exact PKB|]. split; [exact EN|].
        split; [apply in_snoc, IN|]. split; [exact KW'|]. left. auto. }
      assert (SAME' : forall id e, sm_inv_R (l ++ [(m, Err e)]) (sm_set_id s id)) by (intros id e; apply SAME; auto).
      obi E. match type of E with match ?u with _ => _ end = _ => destruct u as [pt|ee] end.
      2:{ injection E as <- <- <-. split; [apply SAME; auto|auto]. }
      obi E. match type of E with match ?u with _ => _ end = _ => destruct u as [c|ee] end.
      2:{ injection E as <- <- <-. split; [apply SAME; auto|auto]. }
      obi E. match type of E with (if negb ?u then _ else _) = _ => destruct u end; cbn [negb] in E.
      2:{ injection E as <- <- <-. split; [apply SAME'|cbn [sm_set_id sm_step]; auto]. }
      obi E. match type of E with (if negb ?u then _ else _) = _ => destruct u end; cbn [negb] in E.
      2:{ injection E as <- <- <-. split; [apply SAME'|cbn [sm_set_id sm_step]; auto]. }
      match type of E with (if negb ?v then _ else _) = _ => destruct v eqn:B end; cbn [negb] in E.
      2:{ injection E as <- <- <-. split; [apply SAME'|cbn [sm_set_id sm_step]; auto]. }
      obi E. injection E as <- <- <-. cbn [sm_finish sm_set_id sm_step]. split; [|lia].
      split; [unfold sm_fixed; cbn; auto|]. right. exists os0, kpk, nA, pkb, ss, ct, ro. split; [exact LA|]. split; [exact PKB|]. split; [exact EN|].
      split; [apply in_snoc, IN|]. split; [unfold sm_known; cbn; auto 10|].
      right. cbn [sm_finish sm_set_id sm_step sm_done sm_id]. split; [lia|]. split; [reflexivity|]. eexists m, _, (smc_id c). split; [apply in_last|]. split; [reflexivity|].
      subst. rewrite sm_trans_a in *. eapply sm_auth_of; eassumption.
    + discriminate E.
Qed.
Lemma sm_inv_hist : forall rl r l s, n = fst (draw 32 r) ->
  hist IM (fst (ik_new (IdSigmaR (fst mpk) P h) r ssid mpk cert usk rl)) l s -> sm_inv rl l s.
Proof.
  intros rl r l s N H. induction H as [|l s rr m s' o H IH E].
  - cbn [IdSigmaR ik_new]. unfold sm_new. destruct (draw 32 r) as [nonce r1] eqn:DR. cbn [fst].
    assert (N' : n = nonce) by (rewrite N; reflexivity).
    destruct rl; (split; [unfold sm_fixed; cbn; auto|]); left; cbn; rewrite N'; auto.
  - unfold IM in E. cbn [m_run ibke_machine IdSigmaR ik_run] in E. obi E. injection E as <- <-.
    eapply sm_inv_step; eassumption.
Qed.
End Inv.

(** A done initiator sent its nonce and a KEM key, was given the peer's nonce and a KEM
    ciphertext, and accepted a message that, under keys of the decapsulated secret, carries a
    certificate of the id it outputs, a MAC of that id and a signature by the certified key on
    the initiator's nonce, the ssid, that ciphertext and that KEM key.  Whatever messages it
    was given otherwise. *)
Theorem sigma_initiator_done_authentic : forall P h r ssid mpk cert usk l s,
  let I := IdSigmaR (fst mpk) P h in let nA := fst (draw 32 r) in
  hist (ibke_machine I) (fst (ik_new I r ssid mpk cert usk Initiator)) l s -> ik_done I s = true ->
  exists os kpk ksk ro nB ct o m id,
    keygen_ind_cpa h LightSaber os = (kpk, ksk, ro) /\
    In ([], Ok (Some (nA ++ pk_to_bytes kpk))) l /\ In (nB ++ ct, Ok o) l /\ In (m, Ok None) l /\ List.length nB = 32%nat /\
    let ss := decapsulate_ind_cpa LightSaber ct ksk in
    ik_fin I s = Ret (id, sm_out P ss) /\
    sm_authentic P mpk (sm_eb P ss) (sm_mk P ss) ([1] ++ nA ++ ssid ++ ct ++ pk_to_bytes kpk) 1 m id.
Proof.
  intros P h r ssid mpk cert usk l s I nA H D. apply (sm_inv_hist P h ssid mpk cert usk nA Initiator r l s eq_refl) in H.
  cbn [sm_inv] in H. unfold I in *. cbn [IdSigmaR ik_done ik_fin IST] in *.
  destruct H as [_ [[_ [D0 _]]|[os0 [kpk [ksk [ro [KG [IN [SK [[_ [D0 _]]|[nB [ct [o1 [LB [IN1 [KW [[_ D0]|[_ [_ [m [id [IM [ID AU]]]]]]]]]]]]]]]]]]]]]]]; try congruence.
  exists os0, kpk, ksk, ro, nB, ct, o1, m, id. split; [exact KG|]. split; [exact IN|]. split; [exact IN1|]. split; [exact IM|]. split; [exact LB|].
  cbn zeta in *. destruct KW as [_ [_ [_ [_ [_ KY]]]]]. rewrite ID, KY. split; [reflexivity|exact AU].
Qed.
Theorem sigma_responder_done_authentic : forall P h r ssid mpk cert usk l s,
  let I := IdSigmaR (fst mpk) P h in let nB := fst (draw 32 r) in
  hist (ibke_machine I) (fst (ik_new I r ssid mpk cert usk Responder)) l s -> ik_done I s = true ->
  exists os kpk nA pkb ss ct ro m o id,
    indcpa_pk_from_bytes LightSaber pkb = Ret kpk /\ encapsulate_ind_cpa h LightSaber os kpk = (ss, ct, ro) /\
    In (nA ++ pkb, Ok (Some (nB ++ ct))) l /\ In (m, Ok o) l /\ List.length nA = 32%nat /\
    ik_fin I s = Ret (id, sm_out P ss) /\
    sm_authentic P mpk (sm_ea P ss) (sm_mk P ss) ([0] ++ nB ++ ssid ++ pk_to_bytes kpk ++ ct) 0 m id.
Proof.
  intros P h r ssid mpk cert usk l s I nB H D. apply (sm_inv_hist P h ssid mpk cert usk nB Responder r l s eq_refl) in H.
  cbn [sm_inv] in H. unfold I in *. cbn [IdSigmaR ik_done ik_fin IST] in *.
  destruct H as [_ [[_ [D0 _]]|[os0 [kpk [nA [pkb [ss [ct [ro [LA [PKB [EN [IN [KW [[_ D0]|[_ [_ [m [o [id [IM [ID AU]]]]]]]]]]]]]]]]]]]]]]; try congruence.
  exists os0, kpk, nA, pkb, ss, ct, ro, m, o, id. split; [exact PKB|]. split; [exact EN|]. split; [exact IN|]. split; [exact IM|]. split; [exact LA|].
  destruct KW as [_ [_ [_ [_ [_ KY]]]]]. rewrite ID, KY. split; [reflexivity|exact AU].
Qed.

(* ---------------------------------------------------------------- C29 *)
(** finalize hands out whatever id a certificate claims: a session that has the KEM keys and is
    given a properly encrypted certificate that does not verify returns an error, is not done,
    and finalizes to the id of that certificate. *)
Theorem sigma_finalize_unauthenticated : forall P h s r os re sg mac id upk csig ea eb k,
  let mpk := sm_mpk s in let ty := fst mpk in
  (sm_step s = 3%nat \/ sm_step s = 4%nat) -> sm_enc s = Some (ea, eb) -> sm_key s = Some k -> sm_done s = false ->
  List.length sg = sig_len ty -> sm_cert_wf P ty (SmCert id (ty, upk) (ty, csig)) ->
  verify P ty (snd mpk) (id ++ upk) csig = false ->
  let ek := if (sm_step s =? 3)%nat then ea else eb in
  let m := fst (auth_encrypt P re ek (sg ++ mac ++ id ++ upk ++ csig)) in
  exists s', ik_run (IdSigmaR ty P h) s r os m = Ret (s', Err SmSig, r) /\ ik_done (IdSigmaR ty P h) s' = false /\
    ik_fin (IdSigmaR ty P h) s' = Ret (id, k).
Proof.
  intros P h s r os re sg mac id upk csig ea eb k mpk ty ST EN KY D LS W V ek m.
  exists (sm_set_id s id). cbn [IdSigmaR ik_run ik_done ik_fin sm_set_id sm_done sm_id sm_key unwrap obind]. rewrite KY. cbn [unwrap obind].
  split; [|auto].
  pose proof (sm_parse_ok P ty sg mac _ LS W) as PA. unfold sm_cert_to_bytes in PA. cbn [smc_id smc_upk smc_sig snd] in PA.
  assert (VV : sm_cert_valid P mpk (SmCert id (ty, upk) (ty, csig)) = Ret false).
  { unfold sm_cert_valid, t_verify. cbn [smc_id smc_upk smc_sig fst snd]. fold ty.
    assert (SE : scheme_eqb ty ty = true) by (destruct ty; reflexivity). rewrite SE. cbn [assert_]. rewrite V. reflexivity. }
  unfold sm_run, m, ek. destruct ST as [ST|ST]; rewrite ST; rewrite EN; cbn [Nat.eqb unwrap obind];
    rewrite auth_roundtrip; cbn [obind]; fold mpk ty; rewrite PA; cbn [obind]; rewrite VV; reflexivity.
Qed.
Lemma sm_enrolled_exists : forall ty P h msk id, exists cert usk, enrolled (IdSigmaR ty P h) msk id cert usk.
Proof.
  intros ty P h msk id. destruct (gen_user (IdSigmaR ty P h) (fun _ => 0)) as [[upk usk] r] eqn:U.
  destruct (ik_extract (IdSigmaR ty P h) r msk id upk) as [cert r'] eqn:X. exists cert, usk, (fun _ => 0), upk, r, r, r'. auto.
Qed.
(** Hence C29 fails for every signature scheme that rejects something at all. *)
Theorem sigma_finalize_refuted : forall ty P h rm mpk msk rm' id upk csig,
  gen_main (IdSigmaR ty P h) rm = (mpk, msk, rm') ->
  sm_cert_wf P ty (SmCert id (ty, upk) (ty, csig)) -> verify P ty (snd mpk) (id ++ upk) csig = false ->
  ~ ibke_fin_iff_done (IdSigmaR ty P h).
Proof.
  intros ty P h rm mpk msk rm' id upk csig GM W V H.
  assert (LI : List.length id = 32%nat) by apply W.
  destruct (sm_enrolled_exists ty P h msk id) as [cert [usk EN]].
  set (z := (fun _ => 0) : rng).
  assert (LZ : List.length (fst (draw 32 z)) = 32%nat) by apply draw_length.
  destruct (sm_first_steps P h mpk cert cert usk usk [] (fst (draw 32 z)) (fst (draw 32 z)) z z LZ LZ) as
    [kpk [ksk [kpk' [ct [R0 [R1 _]]]]]].
  set (s0 := fst (ik_new (IdSigmaR ty P h) z [] mpk cert usk Responder)).
  assert (TM : fst mpk = ty).
  { cbn [IdSigmaR gen_main] in GM. unfold sm_gen in GM. destruct (sig_keygen P ty rm) as [[? ?] ?]. injection GM as <- _ _. reflexivity. }
  set (B1 := Sigma [] (Some (fst (draw 32 z)), Some (fst (draw 32 z))) mpk cert usk (Some kpk') None (Some ct) (Some (sm_mk P (bytes_at z 0 32)))
                (Some (sm_ea P (bytes_at z 0 32), sm_eb P (bytes_at z 0 32))) None (Some (sm_out P (bytes_at z 0 32))) 3 false) in R1.
  set (sg := repeat 0 (sig_len ty)).
  destruct (sigma_finalize_unauthenticated P h B1 z z z sg [] id upk csig (sm_ea P (bytes_at z 0 32)) (sm_eb P (bytes_at z 0 32)) (sm_out P (bytes_at z 0 32)))
    as [s' [RN [DN FN]]]; cbn [B1 sm_mpk sm_step sm_enc sm_key sm_done]; rewrite ?TM; auto.
  { apply repeat_length. }
  cbn [B1 sm_mpk] in RN, DN, FN. rewrite TM in RN, DN, FN.
  destruct (H s0 s') as [_ H'].
  - exists rm, mpk, msk, rm', id, cert, usk, z, [], Responder. auto.
  - eapply (reach_run (ibke_machine (IdSigmaR ty P h)) s0 B1 (z, z)).
    + eapply (reach_run (ibke_machine (IdSigmaR ty P h)) s0 s0 (z, z)); [constructor|].
      cbn [m_run ibke_machine IdSigmaR ik_run fst snd]. unfold s0. cbn [IdSigmaR ik_new]. unfold sm_new.
      replace (draw 32 z) with (fst (draw 32 z), snd (draw 32 z)) by (destruct (draw 32 z); reflexivity). cbn [fst first_step].
      rewrite R1. reflexivity.
    + cbn [m_run ibke_machine fst snd]. rewrite RN. reflexivity.
  - rewrite H' in DN by (exists id; eexists; exact FN). discriminate DN.
Qed.

(* ---------------------------------------------------------------- C30, C31 *)
Lemma sm_mixed_fixed : forall ty P h s0 s, mixed (IdSigmaR ty P h) s0 s ->
  (forall n, fst (sm_nonces s0) = Some n \/ snd (sm_nonces s0) = Some n -> List.length n = 32%nat) ->
  sm_cert_ s = sm_cert_ s0 /\ sm_mpk s = sm_mpk s0 /\ sm_sk s = sm_sk s0 /\
  (forall n, fst (sm_nonces s) = Some n \/ snd (sm_nonces s) = Some n -> List.length n = 32%nat).
Proof.
  intros ty P h s0 s H N0. induction H as [|s r os m s' o r' H IH E|s s' k H IH E]; [auto| |].
  - destruct IH as [<- [<- [<- IN]]]. cbn [IdSigmaR ik_run] in E. unfold sm_run in E.
    destruct (sm_step s) as [|[|[|[|[|k]]]]]; [| | | | |discriminate E]; obi E;
    repeat (first [ match type of E with (if ?u then _ else _) = _ => destruct u end
                  | match type of E with match ?u with _ => _ end = _ => destruct u end]; obi E);
    injection E as <- <- <-; auto; cbn [sm_cert_ sm_mpk sm_sk sm_nonces fst snd];
    (split; [reflexivity|split; [reflexivity|split; [reflexivity|]]]);
    match goal with X : split_at 32 _ = Ret _ |- _ => apply split_at_inv in X; destruct X as [_ LN] end;
    intros n [X|X]; (injection X as <-; exact LN) || (apply IN; auto).
  - destruct IH as [<- [<- [<- IN]]]. cbn [IdSigmaR ik_sim] in E. unfold sm_sim in E.
    destruct (sm_step s) as [|[|[|[|[|j]]]]]; [| | | | |discriminate E]; injection E as <- <-; auto.
Qed.
Lemma sm_fresh_fixed : forall ty P h s0 s, fresh_session (IdSigmaR ty P h) s0 -> mixed (IdSigmaR ty P h) s0 s ->
  fst (sm_mpk s) = ty /\ fst (sm_sk s) = ty /\ List.length (sm_cert_to_bytes (sm_cert_ s)) = sm_cert_size ty /\
  (forall n, fst (sm_nonces s) = Some n \/ snd (sm_nonces s) = Some n -> List.length n = 32%nat).
Proof.
  intros ty P h s0 s [rm [mpk [msk [rm' [id [cert [usk [r0 [ssid [rl [GM [L [EN ->]]]]]]]]]]]]] MX.
  destruct (sm_enrolled ty P h rm mpk msk rm' id cert usk GM L EN) as [T1 [T2 [_ [LC _]]]].
  apply sm_mixed_fixed in MX.
  - destruct MX as [E1 [E2 [E3 N]]]. rewrite E1, E2, E3. cbn [IdSigmaR ik_new]. unfold sm_new. destruct (draw 32 r0) as [nn r1]. cbn [fst sm_mpk sm_sk sm_cert_]. auto.
  - cbn [IdSigmaR ik_new]. unfold sm_new. destruct (draw 32 r0) as [nn r1] eqn:DR. apply draw_eq in DR. destruct DR as [LN _].
    intros n. destruct rl; cbn [fst snd sm_nonces]; intros [X|X]; try discriminate X; injection X as <-; exact LN.
Qed.
(** The exact relation: in every reachable state, where run succeeds run_sim succeeds, sends
    nothing where run sends nothing, and otherwise returns the size of the message except for
    the two encrypted messages (steps 2 and 3), which are 12 bytes longer than it says. *)
Theorem sigma_sim_size_gap : forall ty P h s0 s, fresh_session (IdSigmaR ty P h) s0 -> mixed (IdSigmaR ty P h) s0 s ->
  forall r os m s' out r', ik_run (IdSigmaR ty P h) s r os m = Ret (s', Ok out, r') ->
  exists s'' n, ik_sim (IdSigmaR ty P h) s = Ret (s'', n) /\
    match out with
    | None => n = None
    | Some b => exists k, n = Some k /\
        List.length b = (k + if (sm_step s =? 2) || (sm_step s =? 3) then 12 else 0)%nat
    end.
Proof.
  intros ty P h s0 s FS MX r os m s' out r' E.
  destruct (sm_fresh_fixed ty P h s0 s FS MX) as [TM [TS [LC NN]]].
  cbn [IdSigmaR ik_run ik_sim IST] in *. unfold sm_run in E. unfold sm_sim. rewrite TM in *.
  assert (LS : forall x, List.length (snd (t_sign P (sm_sk s) x)) = sm_sig_size ty) by (intro x; unfold t_sign; cbn [snd]; rewrite TS; apply sign_length).
  destruct (sm_step s) as [|[|[|[|[|j]]]]]; [| | | | |discriminate E]; obi E;
    repeat (first [ match type of E with (if ?u then _ else _) = _ => destruct u; try discriminate E end
                  | match type of E with match ?u with _ => _ end = _ => destruct u; try discriminate E end]; obi E);
    injection E as _ <- _; do 2 eexists; (split; [reflexivity|]); try reflexivity; eexists; (split; [reflexivity|]); cbn [Nat.eqb orb].
  - match goal with X : unwrap (fst (sm_nonces s)) = Ret ?w |- _ => assert (LN : List.length w = 32%nat) by
      (destruct (fst (sm_nonces s)) as [w'|]; [injection X as <-; apply NN; auto|discriminate X]) end.
    match goal with X : keygen_ind_cpa _ _ _ = _ |- _ => pose proof (keygen_len_light _ _ _ _ _ X) as LP; clear X end.
    rewrite app_length. rewrite LN. rewrite LP. rewrite light_pk_bytes. reflexivity.
  - match goal with X : unwrap (snd (sm_nonces s)) = Ret ?w |- _ => assert (LN : List.length w = 32%nat) by
      (destruct (snd (sm_nonces s)) as [w'|]; [injection X as <-; apply NN; auto|discriminate X]) end.
    match goal with X : encapsulate_ind_cpa _ _ _ _ = _ |- _ => pose proof (encaps_len_light _ _ _ _ _ _ X) as LP; clear X end.
    rewrite app_length, LN, LP, light_ct_bytes. reflexivity.
  - match goal with X : auth_encrypt _ _ ?k ?pt = (?c, _) |- _ =>
      pose proof (auth_encrypt_length P r k pt) as LE; rewrite X in LE; cbn [fst] in LE end.
    rewrite LE, !app_length, LS, hmac_length, LC. unfold TAGLEN. lia.
  - match goal with X : auth_encrypt _ _ ?k ?pt = (?c, _) |- _ =>
      pose proof (auth_encrypt_length P r k pt) as LE; rewrite X in LE; cbn [fst] in LE end.
    rewrite LE, !app_length, LS, hmac_length, LC. unfold TAGLEN. lia.
Qed.
(** Hence C30 fails, for every main key, as soon as the initiator receives the second message. *)
Theorem sigma_sim_size_refuted : forall ty P h, ~ sim_predicts_size (IdSigmaR ty P h).
Proof.
  intros ty P h H. set (z := (fun _ => 0) : rng).
  destruct (gen_main (IdSigmaR ty P h) z) as [[mpk msk] rm'] eqn:GM.
  set (id := repeat 0 32). assert (LI : List.length id = 32%nat) by reflexivity.
  destruct (sm_enrolled_exists ty P h msk id) as [cert [usk EN]].
  assert (LZ : List.length (fst (draw 32 z)) = 32%nat) by apply draw_length.
  destruct (sm_first_steps P h mpk cert cert usk usk [] (fst (draw 32 z)) (fst (draw 32 z)) z z LZ LZ) as
    [kpk [ksk [kpk' [ct [R0 [_ _]]]]]].
  set (s0 := fst (ik_new (IdSigmaR ty P h) z [] mpk cert usk Initiator)).
  set (A1 := Sigma [] (Some (fst (draw 32 z)), None) mpk cert usk (Some kpk) (Some ksk) None None None None None 2 false) in R0.
  assert (FS : fresh_session (IdSigmaR ty P h) s0).
  { exists z, mpk, msk, rm', id, cert, usk, z, [], Initiator. auto. }
  assert (MX : mixed (IdSigmaR ty P h) s0 A1).
  { eapply (mixed_run (IdSigmaR ty P h) s0 s0 z z [] A1); [constructor|]. cbn [IdSigmaR ik_run]. unfold s0. cbn [IdSigmaR ik_new]. unfold sm_new.
    replace (draw 32 z) with (fst (draw 32 z), snd (draw 32 z)) by (destruct (draw 32 z); reflexivity). cbn [fst first_step]. apply R0. }
  assert (R : exists s' b r', ik_run (IdSigmaR ty P h) A1 z z (repeat 0 768) = Ret (s', Ok (Some b), r')).
  { cbn [IdSigmaR ik_run]. unfold sm_run, A1. cbn [sm_step]. unfold split_at. rewrite repeat_length. change (32 <=? 768)%nat with true. cbn [obind].
    set (cc := skipn 32 (repeat 0 768)). assert (LC : List.length cc = 736%nat) by (unfold cc; rewrite skipn_length, repeat_length; reflexivity).
    assert (BC : is_bytes cc).
    { unfold is_bytes. apply Forall_forall. intros x IX. assert (x = 0) as ->; [|unfold is_byte; lia]. apply (repeat_spec 768). rewrite <- (firstn_skipn 32). apply in_or_app. right. exact IX. }
    clearbody cc.
    unfold ciphertext_from_bytes, newtype_from_bytes. rewrite LC, light_ct_bytes. change (736 =? 736)%nat with true. cbn [negb assert_ obind sm_ksk unwrap].
    assert (LD : List.length (decapsulate_ind_cpa LightSaber cc ksk) = 32%nat).
    { rewrite (proj1 (dec_length LightSaber ksk cc ps_light BC) : List.length (decapsulate_ind_cpa LightSaber cc ksk) = _). reflexivity. }
    rewrite sm_keys_ok by exact LD. cbn [obind sm_kpk unwrap].
    destruct (auth_encrypt _ _ _ _) as [b rb]. do 3 eexists. reflexivity. }
  destruct R as [s' [b [r' R]]].
  destruct (sigma_sim_size_gap ty P h s0 A1 FS MX _ _ _ _ _ _ R) as [s1 [n1 [S1 [k [-> LB]]]]].
  destruct (H s0 A1 FS MX _ _ _ _ _ _ R) as [s2 S2]. rewrite S2 in S1. injection S1 as _ S1. cbn [A1 sm_step Nat.eqb orb] in LB. lia.
Qed.
Theorem sigma_sim_completes : forall ty P h, sim_completes (IdSigmaR ty P h).
Proof.
  intros ty P h s0 s FS MX r os m s' out r' s'' k E F. clear FS MX.
  cbn [IdSigmaR ik_run ik_sim ik_done IST] in *. unfold sm_run in E. unfold sm_sim in F.
  destruct (sm_step s) as [|[|[|[|[|j]]]]]; [| | | | |discriminate E]; obi E;
    repeat (first [ match type of E with (if ?u then _ else _) = _ => destruct u; try discriminate E end
                  | match type of E with match ?u with _ => _ end = _ => destruct u; try discriminate E end]; obi E);
    injection E as <- _ _; injection F as <- _; reflexivity.
Qed.

(* ---------------------------------------------------------------- C37 *)
Theorem sigma_steps : forall P h r ssid mpk cert usk rl,
  let I := IdSigmaR (fst mpk) P h in
  disciplined (ibke_machine I) sm_step rl (fst (ik_new I r ssid mpk cert usk rl)).
Proof.
  intros P h r ssid mpk cert usk rl I.
  apply (disciplined_by (ibke_machine I) sm_step rl _ (fun s => exists l, sm_inv P h ssid mpk cert usk (fst (draw 32 r)) rl l s)).
  - unfold I. cbn [IdSigmaR ik_new]. unfold sm_new. destruct (draw 32 r). reflexivity.
  - exists []. apply (sm_inv_hist P h ssid mpk cert usk (fst (draw 32 r)) rl r); [reflexivity|]. constructor.
  - intros s rr m s' o [l IV] E. unfold I in E. cbn [m_run ibke_machine IdSigmaR ik_run] in E. obi E. injection E as <- ->.
    destruct (sm_inv_step _ _ _ _ _ _ _ _ _ _ _ _ _ _ _ _ IV E0) as [A B]. split; [eexists; exact A|exact B].
  - intros s rr m s' o [l IV] E. unfold I in E. cbn [m_run ibke_machine IdSigmaR ik_run] in E. obi E. injection E as <- ->.
    destruct (sm_inv_step _ _ _ _ _ _ _ _ _ _ _ _ _ _ _ _ IV E0) as [A B]. split; [eexists; exact A|exact B].
  - intros s rr m [l IV] D. unfold I in *. cbn [m_run m_done m_st ibke_machine IdSigmaR ik_run ik_done IST] in *. unfold sm_run.
    destruct rl; cbn [sm_inv] in IV.
    + destruct IV as [_ [[_ [D0 _]]|[os0 [kpk [ksk [ro [KG [IN [SK [[_ [D0 _]]|[nB [ct [o1 [LB [IN1 [KW [[_ D0]|[-> _]]]]]]]]]]]]]]]]]]; try congruence. reflexivity.
    + destruct IV as [_ [[_ [D0 _]]|[os0 [kpk [nA [pkb [ss [ct [ro [LA [PKB [EN [IN [KW [[_ D0]|[-> _]]]]]]]]]]]]]]]]; try congruence. reflexivity.
Qed.
