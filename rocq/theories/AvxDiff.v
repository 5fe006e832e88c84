(** * AvxDiff: signatures on which the two builds disagree (for a toy hash), and ID-SIGMA-R between
    machines that run different builds. *)
From Coq Require Import ZArith List Lia Bool.
From Verif Require Import Base Bits SaberPoly Ring SaberRing DilArith DilNtt DilNttProof DilNttEval DilNttSpec DilPoly DilPack DilCodec DilCodec2 DilHint DilOps DilSample DilRound DilSign DilCorrect DilProps
  DilRing DilSpec DilSpec2 DilWitness DilShake DilShake2 AvxMachine AvxSym AvxSymOk AvxNtt AvxPoint AvxPoly AvxBytes AvxBytesOk AvxCodecOk AvxSign AvxSample AvxSignOk AvxSignOk2 AvxVerifyOk AvxSpec.
Import ListNotations.
Open Scope Z_scope.
Local Opaque root ev.

(** A toy hash that reads one byte of the commitment: on 832-byte inputs (mu and the packed high
    parts) it repeats the first byte of the high parts; elsewhere it is [toy_xof]. *)
Definition diff256 (inp : bytes) : rng := if (length inp =? 832)%nat then fun _ => at_ inp 64 else toy256 inp.
Definition diff_xof : xof := {| shake128 := fun _ _ => 0; shake256 := diff256 |}.
(** The hint with a single one, at the first coefficient. *)
Definition h1 : polyvec := (1 :: repeat 0 255) :: repeat z256 3.
(** z with all coefficients at the largest value that is encoded, 2^17. *)
Definition zbig : polyvec := repeat (repeat 131072 256) 4.

Lemma d_uniform : forall rho nonce, poly_uniform 0 diff_xof rho nonce = CRet z256.
Proof. intros. vm_compute. reflexivity. Qed.
Lemma d_expand : forall f rho, polyvec_matrix_expand f diff_xof rho = CRet zmat.
Proof.
  intros f rho. apply (matrix_expand_mono 0 f diff_xof rho ltac:(lia)). unfold polyvec_matrix_expand. cbn [seq mapM]. rewrite !d_uniform. reflexivity.
Qed.
Lemma d_challenge : forall ct, length ct = 32%nat -> exists c, poly_challenge 300 diff_xof ct = CRet c /\ pol 1 c.
Proof.
  intros ct L. assert (G : exists c, poly_challenge 300 diff_xof ct = CRet c).
  { unfold poly_challenge. cbn [shake256 diff_xof]. unfold diff256, toy256. rewrite firstn_length, L.
    change (Nat.min 32 32 =? 832)%nat with false. change (Nat.min 32 32 =? 128)%nat with false. change (Nat.min 32 32 =? 66)%nat with false. cbn [andb].
    eexists. vm_compute. reflexivity. }
  destruct G as (c & E). exists c. split; [exact E|]. exact (safe_inv _ _ _ (challenge_pol 300 diff_xof ct) E).
Qed.
Lemma d_close : forall b w1, length b = 64%nat -> length (polyveck_pack_w1 w1) = 768%nat ->
  H256 diff_xof 32 (b ++ polyveck_pack_w1 w1) = repeat (u8 (at_ (polyveck_pack_w1 w1) 0)) 32.
Proof.
  intros b w1 Lb Lw. unfold H256, stream256. cbn [shake256 diff_xof]. unfold diff256. rewrite app_length, Lb, Lw. cbn [Nat.add Nat.eqb].
  unfold at_ at 1. rewrite app_nth2 by lia. rewrite Lb. reflexivity.
Qed.
Lemma ev_z256 : forall p, eqq (ev p z256) 0.
Proof.
  intro p. apply (ev_scal z256 0 z256 p). intros i Hi. unfold z256. rewrite at_repeat0. apply eqq_refl.
Qed.
Lemma vat_z4 : forall i, (i < 4)%nat -> vat z4 i = z256.
Proof. intros i Hi. destruct i as [|[|[|[|i]]]]; try reflexivity. lia. Qed.
Lemma zmat_entry : forall i j p, (i < 4)%nat -> (j < 4)%nat -> mentry zmat i j p = 0.
Proof.
  intros i j p Hi Hj. unfold mentry. assert (E : nth i zmat [] = z4) by (destruct i as [|[|[|[|i]]]]; try reflexivity; lia).
  rewrite E, vat_z4 by exact Hj. apply at_repeat0.
Qed.
Lemma z256_std : std z256.
Proof. split; [reflexivity|]. intros p Hp. unfold z256. rewrite at_repeat0. unfold Q. lia. Qed.
Lemma recomputed_zero : forall z c, recomputed zmat z z4 c z4.
Proof.
  intros z c. split; [split; [reflexivity|]; intros i Hi; rewrite vat_z4 by exact Hi; exact z256_std|].
  intros i Hi p Hp. rewrite vat_z4 by exact Hi. eapply eqq_trans; [apply ev_z256|]. unfold mrow. rewrite !zmat_entry by lia.
  destruct (ev_z256 p) as [k ->]. exists (ev p c * k * 8192). ring.
Qed.
Lemma w_pk_parts : unpack_pk w_pk = (w_rho, z4).
Proof. vm_compute. reflexivity. Qed.
Lemma w_pk_length : length w_pk = 1312%nat.
Proof. vm_compute. reflexivity. Qed.
Lemma h1_ok : length h1 = 4%nat /\ hint_vec h1 /\ (length (flat_map positions h1) <= OMEGA)%nat.
Proof.
  split; [reflexivity|]. split.
  - assert (Z : length z256 = 256%nat /\ Forall bit z256) by (split; [reflexivity|]; apply Forall_forall; intros x Hx; apply repeat_spec in Hx; left; exact Hx).
    assert (O : length (1 :: repeat 0 255) = 256%nat /\ Forall bit (1 :: repeat 0 255)).
    { split; [reflexivity|]. apply Forall_cons; [right; reflexivity|]. apply Forall_forall. intros x Hx. apply repeat_spec in Hx. left. exact Hx. }
    unfold hint_vec, h1. apply Forall_cons; [exact O|]. apply Forall_forall. intros r Hr. apply repeat_spec in Hr. subst r. exact Z.
  - vm_compute. lia.
Qed.
Lemma z4_hint : length z4 = 4%nat /\ hint_vec z4 /\ (length (flat_map positions z4) <= OMEGA)%nat.
Proof.
  split; [reflexivity|]. split.
  - apply Forall_forall. intros r Hr. apply repeat_spec in Hr. subst r. split; [reflexivity|].
    apply Forall_forall; intros x Hx; apply repeat_spec in Hx; left; exact Hx.
  - vm_compute. lia.
Qed.
Lemma rep4 : forall (P : Z -> Prop) x, P x -> vec4 P (repeat (repeat x 256) 4).
Proof.
  intros P x H. split; [reflexivity|]. apply Forall_forall. intros r Hr. apply repeat_spec in Hr. subst r. split; [apply repeat_length|].
  apply Forall_forall. intros y Hy. apply repeat_spec in Hy. subst y. exact H.
Qed.
Lemma sig_is_bytes : forall c z h sig, is_bytes c -> length h = 4%nat -> (length (flat_map positions h) <= OMEGA)%nat -> pack_sig c z h = CRet sig -> is_bytes sig.
Proof.
  intros c z h sig Bc Lh Ho E. unfold pack_sig in E. rewrite (pack_hint_ok h Lh Ho) in E. cbn [cbind] in E.
  assert (sig = firstn 32 c ++ flat_map polyz_pack z ++ DilHint.hint_bytes h) as -> by congruence.
  apply Forall_app. split; [apply is_bytes_firstn; exact Bc|]. apply Forall_app. split; [apply flat_map_bytes, polyz_pack_bytes|apply DilHint.hint_bytes_bytes; exact Ho].
Qed.
Lemma rep_bytes : forall x n, 0 <= x < 256 -> is_bytes (repeat x n).
Proof. intros x n H. apply Forall_forall. intros y Hy. apply repeat_spec in Hy. subst y. exact H. Qed.
(** ** Disagreements *)
(** [valid] and [valid_avx] with the zero matrix: the recomputed commitment is zero. *)
Lemma zero_commitment : forall X c z h, (forall f rho, polyvec_matrix_expand f X rho = CRet zmat) ->
  (exists cp, poly_challenge 300 X c = CRet cp /\ pol 1 cp) ->
  length c = 32%nat -> is_bytes c -> vec4 z_range z -> length h = 4%nat -> hint_vec h -> (length (flat_map positions h) <= OMEGA)%nat ->
  exists sig, pack_sig c z h = CRet sig /\ length sig = 2420%nat /\ is_bytes sig /\
    forall e m, ctx_ok e ->
      (verify_signature_avx e 300 X sig m w_pk = CRet true <-> closes X m w_pk c (map2 use_hint_avx z4 h)) /\
      (verify_signature 300 X sig m w_pk = CRet true <->
        vec4 (fun x => Z.abs x < GAMMA1 - BETA) z /\ exists w1, polyveck_use_hint z4 h = CRet w1 /\ closes X m w_pk c w1).
Proof.
  intros X c z h EM (cp & Ec & _) Lc Bc Vz Lh Vh Ho. destruct (unpack_pack_sig c z h Lc Vz Lh Vh Ho) as (sig & Es & Ls & Us).
  assert (Bs : is_bytes sig) by exact (sig_is_bytes c z h sig Bc Lh Ho Es).
  exists sig. split; [exact Es|]. split; [exact Ls|]. split; [exact Bs|]. intros e m He. split.
  - rewrite (proj2 (avx_verify_run e 300 X sig m w_pk He w_pk_length Bs)). unfold valid_avx. rewrite w_pk_parts. cbn [fst snd]. split.
    + intros (_ & c' & z' & h' & cp' & mat & w & Us' & Ec' & Em & R & G). rewrite Us in Us'. apply Some_triple_inj in Us'. destruct Us' as (<- & <- & <-).
      rewrite EM in Em. assert (mat = zmat) as -> by congruence. rewrite (recomputed_unique _ _ _ _ _ _ R (recomputed_zero z cp')) in G. exact G.
    + intro G. split; [exact Ls|]. exists c, z, h, cp, zmat, z4. split; [exact Us|]. split; [exact Ec|]. split; [apply EM|]. split; [apply recomputed_zero|exact G].
  - assert (IFF : verify_signature 300 X sig m w_pk = CRet true <-> valid 300 X sig m w_pk).
    { destruct (verify_ok 300 X sig m w_pk w_pk_length Bs) as [F|(b & E & H)].
      - rewrite F. split; [discriminate|]. intro V. exfalso. destruct V as (_ & c' & z' & h' & cp' & mat & w & w1 & Us' & Nz & Ec' & Em & R & Ew & G).
        destruct (verify_run 300 X sig m w_pk w_rho z4 c' z' h' cp' mat Ls w_pk_parts) as (w' & R' & E); [|exact Us'|exact Nz|exact Ec'|rewrite w_pk_parts in Em; exact Em|].
        { pose proof (unpack_pk_vec w_pk w_pk_length) as V1. rewrite w_pk_parts in V1. exact V1. }
        rewrite w_pk_parts in R. cbn [snd] in R. rewrite (recomputed_unique _ _ _ _ _ _ R' R), Ew, F in E. discriminate E.
      - rewrite E. rewrite <- H. split; [intro G; injection G; auto|intros ->; reflexivity]. }
    rewrite IFF. unfold valid. rewrite w_pk_parts. cbn [fst snd]. split.
    + intros (_ & c' & z' & h' & cp' & mat & w & w1 & Us' & Nz & Ec' & Em & R & Ew & G). rewrite Us in Us'. apply Some_triple_inj in Us'. destruct Us' as (<- & <- & <-).
      rewrite EM in Em. assert (mat = zmat) as -> by congruence. rewrite (recomputed_unique _ _ _ _ _ _ R (recomputed_zero z cp')) in Ew.
      split; [exact Nz|]. exists w1. split; [exact Ew|exact G].
    + intros [Nz (w1 & Ew & G)]. split; [exact Ls|]. exists c, z, h, cp, zmat, z4, w1. split; [exact Us|]. split; [exact Nz|]. split; [exact Ec|]. split; [apply EM|].
      split; [apply recomputed_zero|]. split; [exact Ew|exact G].
Qed.
Lemma toy_expand : forall f rho, polyvec_matrix_expand f toy_xof rho = CRet zmat.
Proof. intros f rho. exact (matrix_expand_mono 0 f toy_xof rho ltac:(lia) _ (w_expand rho)). Qed.
Definition toy_ct : bytes := repeat 170 8 ++ map (fun i => Z.of_nat i) (seq 0 24).
Lemma toy_close : forall b w1, length b = 64%nat -> length (polyveck_pack_w1 w1) = 768%nat -> H256 toy_xof 32 (b ++ polyveck_pack_w1 w1) = toy_ct.
Proof.
  intros b w1 Lb Lw. unfold H256. cbn [shake256 toy_xof]. unfold toy256. rewrite app_length, Lb, Lw. cbn [Nat.add Nat.eqb andb]. vm_compute. reflexivity.
Qed.
(** There are a generated key and a signature with z out of the bound of the specification that
    the AVX2 build accepts for every message and the CLEAN build rejects. *)
Theorem avx_accepts_long_z : exists pk sk sig c h, keypair_det 0 toy_xof (repeat 7 32) = CRet (pk, sk) /\
  length sig = 2420%nat /\ is_bytes sig /\ unpack_sig sig = Some (c, zbig, h) /\
  forall e m, ctx_ok e -> verify_signature_avx e 300 toy_xof sig m pk = CRet true /\ verify_signature 300 toy_xof sig m pk = CRet false.
Proof.
  exists w_pk, w_sk. destruct z4_hint as (Lh & Vh & Ho).
  assert (Lc : length toy_ct = 32%nat) by reflexivity.
  assert (Bc : is_bytes toy_ct). { unfold toy_ct. apply Forall_app. split; [apply rep_bytes; lia|]. apply Forall_forall. intros x Hx. apply in_map_iff in Hx. destruct Hx as (i & <- & Hi). apply in_seq in Hi. unfold is_byte. lia. }
  assert (Vz : vec4 z_range zbig) by (apply rep4; unfold z_range, GAMMA1; lia).
  destruct (zero_commitment toy_xof toy_ct zbig z4 toy_expand (w_challenge toy_ct Lc) Lc Bc Vz Lh Vh Ho) as (sig & Es & Ls & Bs & H).
  destruct (unpack_pack_sig toy_ct zbig z4 Lc Vz Lh Vh Ho) as (sig' & Es' & _ & Us). assert (sig' = sig) as -> by congruence.
  exists sig, toy_ct, z4. split; [exact w_keypair|]. split; [exact Ls|]. split; [exact Bs|]. split; [exact Us|]. intros e m He. destruct (H e m He) as [A _]. split.
  - apply A. unfold closes. rewrite toy_close; [reflexivity|apply H256_length|]. vm_compute. reflexivity.
  - unfold verify_signature. rewrite Ls, Nat.eqb_refl. cbn [negb]. rewrite w_pk_parts, Us.
    replace (polyvec_chknorm zbig (GAMMA1 - BETA)) with (CRet true) by (vm_compute; reflexivity). reflexivity.
Qed.
(** With the other toy hash, the AVX2 build accepts the hint at a coefficient of low part zero if
    the high part 1 was meant (challenge 1...), and the CLEAN build if 43 was meant: each accepts
    a signature that the other one rejects. *)
Theorem zero_hint_builds_differ : exists pk sigA sigC, length pk = 1312%nat /\ is_bytes sigA /\ is_bytes sigC /\ length sigA = 2420%nat /\ length sigC = 2420%nat /\
  forall e m, ctx_ok e ->
    verify_signature_avx e 300 diff_xof sigA m pk = CRet true /\ verify_signature 300 diff_xof sigA m pk <> CRet true /\
    verify_signature_avx e 300 diff_xof sigC m pk <> CRet true /\ verify_signature 300 diff_xof sigC m pk = CRet true.
Proof.
  exists w_pk. destruct h1_ok as (Lh & Vh & Ho).
  assert (Vz : vec4 z_range z4) by (apply rep4; unfold z_range, GAMMA1; lia).
  assert (Nz : vec4 (fun x => Z.abs x < GAMMA1 - BETA) z4) by (apply rep4; unfold GAMMA1, BETA; cbn; lia).
  destruct (zero_commitment diff_xof (repeat 1 32) z4 h1 d_expand (d_challenge (repeat 1 32) eq_refl) eq_refl (rep_bytes 1 32 ltac:(lia)) Vz Lh Vh Ho) as (sA & _ & LA & BA & HA).
  destruct (zero_commitment diff_xof (repeat 43 32) z4 h1 d_expand (d_challenge (repeat 43 32) eq_refl) eq_refl (rep_bytes 43 32 ltac:(lia)) Vz Lh Vh Ho) as (sC & _ & LC & BC & HC).
  exists sA, sC. split; [exact w_pk_length|]. split; [exact BA|]. split; [exact BC|]. split; [exact LA|]. split; [exact LC|]. intros e m He.
  destruct (HA e m He) as [A1 A2]. destruct (HC e m He) as [C1 C2]. rewrite A1, A2, C1, C2. clear A1 A2 C1 C2 HA HC.
  assert (EA : forall c, closes diff_xof m w_pk c (map2 use_hint_avx z4 h1) <-> c = repeat 1 32).
  { intro c. unfold closes. rewrite d_close; [|apply H256_length|vm_compute; reflexivity].
    replace (u8 (at_ (polyveck_pack_w1 (map2 use_hint_avx z4 h1)) 0)) with 1 by (vm_compute; reflexivity). reflexivity. }
  assert (EC : exists w1, polyveck_use_hint z4 h1 = CRet w1 /\ (length (polyveck_pack_w1 w1) = 768%nat) /\ u8 (at_ (polyveck_pack_w1 w1) 0) = 43).
  { eexists. split; [vm_compute; reflexivity|]. split; vm_compute; reflexivity. }
  destruct EC as (w1 & EC & L1 & U1).
  assert (EC' : forall c, closes diff_xof m w_pk c w1 <-> c = repeat 43 32).
  { intro c. unfold closes. rewrite d_close; [|apply H256_length|exact L1]. rewrite U1. reflexivity. }
  assert (NE : repeat 1 32 <> repeat 43 32) by discriminate.
  rewrite !EA. split; [reflexivity|]. split; [|split].
  - intros [_ (w' & E' & G)]. rewrite EC in E'. assert (w' = w1) as -> by congruence. apply EC' in G. exact (NE G).
  - intro G. exact (NE (eq_sym G)).
  - split; [exact Nz|]. exists w1. split; [exact EC|]. apply EC'. reflexivity.
Qed.
