(** * DilWitness: a run of the Dilithium2 model, for the hypotheses of DilProps. *)
From Coq Require Import ZArith List Lia Bool.
From Verif Require Import Base Bits SaberPoly Ring SaberRing DilArith DilNtt DilNttProof DilNttEval DilNttSpec
  DilPoly DilPack DilCodec DilCodec2 DilHint DilOps DilSample DilRound DilSign DilCorrect DilProps.
Import ListNotations.
Open Scope Z_scope.

(** A toy extendable-output function: matrix and secrets zero, masks 43691, challenge of weight 39. *)
Definition toy256 (inp : bytes) : rng :=
  if (length inp =? 128)%nat then fun _ => 1
  else if (length inp =? 66)%nat && (at_ inp 0 =? 1) then fun _ => 85
  else if (length inp =? 66)%nat then fun _ => 34
  else fun i => if (i <? 8)%nat then 170 else Z.of_nat (i - 8).
Definition toy_xof : xof := {| shake128 := fun _ _ => 0; shake256 := toy256 |}.

Definition z256 : poly := repeat 0 256.
Definition z4 : polyvec := repeat z256 4.
Definition zmat : list polyvec := repeat z4 4.
Definition y4 : polyvec := repeat (repeat 43691 256) 4.

Lemma w_uniform : forall rho nonce, poly_uniform 0 toy_xof rho nonce = CRet z256.
Proof. intros. vm_compute. reflexivity. Qed.
Lemma w_expand : forall rho, polyvec_matrix_expand 0 toy_xof rho = CRet zmat.
Proof. intro. unfold polyvec_matrix_expand. cbn [seq mapM]. rewrite !w_uniform. reflexivity. Qed.
Lemma w_ntt0 : ntt z256 = CRet z256. Proof. vm_compute. reflexivity. Qed.
Lemma w_invntt0 : invntt_tomont z256 = CRet z256. Proof. vm_compute. reflexivity. Qed.

Lemma zip_zero : forall (f : Z -> Z -> crun Z) a, (forall x, f 0 x = CRet 0) -> length a = 256%nat -> zipM f z256 a = CRet z256.
Proof.
  intros f a H L. unfold z256. rewrite <- L. clear L. induction a as [|x a IH]; [reflexivity|].
  cbn [length repeat zipM]. rewrite H. cbn [cbind]. rewrite IH. reflexivity.
Qed.
Lemma zip_zero_r : forall (f : Z -> Z -> crun Z) a, (forall x, f x 0 = CRet 0) -> length a = 256%nat -> zipM f a z256 = CRet z256.
Proof.
  intros f a H L. unfold z256. rewrite <- L. clear L. induction a as [|x a IH]; [reflexivity|].
  cbn [length repeat zipM]. rewrite H. cbn [cbind]. rewrite IH. reflexivity.
Qed.
Lemma w_pw_l : forall a, length a = 256%nat -> poly_pointwise_montgomery z256 a = CRet z256.
Proof. intros a L. apply zip_zero; [|exact L]. intro x. rewrite Z.mul_0_l. reflexivity. Qed.
Lemma w_pw_r : forall a, length a = 256%nat -> poly_pointwise_montgomery a z256 = CRet z256.
Proof. intros a L. apply zip_zero_r; [|exact L]. intro x. rewrite Z.mul_0_r. reflexivity. Qed.
Lemma w_add0 : poly_add z256 z256 = CRet z256. Proof. vm_compute. reflexivity. Qed.
Lemma w_reduce0 : poly_reduce z256 = CRet z256. Proof. vm_compute. reflexivity. Qed.
Lemma w_caddq0 : poly_caddq z256 = CRet z256. Proof. vm_compute. reflexivity. Qed.
Lemma w_sub0 : poly_sub z256 z256 = CRet z256. Proof. vm_compute. reflexivity. Qed.

Lemma w_matmul : forall v, vec (fun a => length a = 256%nat) v -> polyvec_matrix_pointwise_montgomery zmat v = CRet z4.
Proof.
  intros v [L V]. destruct v as [|v0 [|v1 [|v2 [|v3 [|? ?]]]]]; try discriminate L.
  pose proof (V 0%nat ltac:(lia)) as V0. pose proof (V 1%nat ltac:(lia)) as V1.
  pose proof (V 2%nat ltac:(lia)) as V2. pose proof (V 3%nat ltac:(lia)) as V3. cbn [vat nth] in *.
  assert (R : polyvecl_pointwise_acc_montgomery z4 [v0; v1; v2; v3] = CRet z256).
  { change z4 with [z256; z256; z256; z256]. cbn [polyvecl_pointwise_acc_montgomery acc_loop].
    rewrite !w_pw_l by assumption. cbn [cbind]. do 3 (rewrite w_add0; cbn [cbind]). reflexivity. }
  unfold polyvec_matrix_pointwise_montgomery. change zmat with [z4; z4; z4; z4]. cbn [mapM]. rewrite R. reflexivity.
Qed.
Lemma w_map4 : forall f, f z256 = CRet z256 -> mapM f z4 = CRet z4.
Proof. intros f H. change z4 with [z256; z256; z256; z256]. cbn [mapM]. rewrite H. reflexivity. Qed.
Lemma w_zip4 : forall f, f z256 z256 = CRet z256 -> zipM f z4 z4 = CRet z4.
Proof. intros f H. change z4 with [z256; z256; z256; z256]. cbn [zipM]. rewrite H. reflexivity. Qed.
Lemma w_z4 : vec (fun a => length a = 256%nat) z4.
Proof. split; [reflexivity|]. intros i Hi. unfold vat, z4. rewrite (nth_indep _ [] z256) by exact Hi. rewrite nth_repeat. reflexivity. Qed.
Lemma w_uniform_eta : forall seed nonce, length seed = 64%nat -> at_ seed 0 <> 1 -> poly_uniform_eta 0 toy_xof seed nonce = CRet z256.
Proof.
  intros seed nonce L N. unfold poly_uniform_eta, stream256. cbn [shake256 toy_xof]. unfold toy256.
  rewrite app_length, L. destruct seed as [|x seed]; [discriminate L|]. change (at_ ((x :: seed) ++ nonce_bytes nonce) 0) with x.
  change (at_ (x :: seed) 0) with x in N. apply Z.eqb_neq in N. rewrite N. vm_compute. reflexivity.
Qed.
Lemma w_gamma1 : forall seed nonce, length seed = 64%nat -> at_ seed 0 = 1 -> polyvecl_uniform_gamma1 toy_xof seed nonce = y4.
Proof.
  intros seed nonce L N. unfold polyvecl_uniform_gamma1.
  assert (G : forall i, poly_uniform_gamma1 toy_xof seed i = repeat 43691 256).
  { intro i. unfold poly_uniform_gamma1, stream256. cbn [shake256 toy_xof]. unfold toy256.
    rewrite app_length, L. destruct seed as [|x seed]; [discriminate L|]. change (at_ ((x :: seed) ++ nonce_bytes i) 0) with x.
    change (at_ (x :: seed) 0) with x in N. rewrite N. vm_compute. reflexivity. }
  cbn [map seq]. rewrite !G. reflexivity.
Qed.

Definition w_rho : bytes := repeat 170 8 ++ map (fun i => Z.of_nat i) (seq 0 24).
Definition w_key : bytes := map (fun i => Z.of_nat i) (seq 88 32).
Definition w_pk : bytes := pack_pk w_rho z4.
Definition w_sk : bytes := pack_sk w_rho (H256 toy_xof 64 w_pk) w_key z4 z4 z4.

Lemma w_seed : H256 toy_xof 128 (firstn 32 (repeat 7 32)) = w_rho ++ map (fun i => Z.of_nat i) (seq 24 64) ++ w_key.
Proof. vm_compute. reflexivity. Qed.
Lemma w_eta4 : forall rp n, length rp = 64%nat -> at_ rp 0 <> 1 -> polyvec_uniform_eta 0 toy_xof rp n = CRet z4.
Proof. intros rp n L N. unfold polyvec_uniform_eta. cbn [seq mapM]. rewrite !w_uniform_eta by assumption. reflexivity. Qed.
Lemma w_round0 : polyveck_power2round z4 = CRet (z4, z4). Proof. vm_compute. reflexivity. Qed.
Lemma w_slices : let sb := w_rho ++ map (fun i => Z.of_nat i) (seq 24 64) ++ w_key in
  slice sb 0 32 = w_rho /\ slice sb 96 32 = w_key /\ length (slice sb 32 64) = 64%nat /\ at_ (slice sb 32 64) 0 <> 1.
Proof. vm_compute. repeat split; discriminate. Qed.
Lemma w_keypair : keypair_det 0 toy_xof (repeat 7 32) = CRet (w_pk, w_sk).
Proof.
  unfold keypair_det. rewrite w_seed.
  destruct w_slices as (E1 & E2 & L & N). cbv zeta. revert E1 E2 L N.
  generalize (w_rho ++ map (fun i => Z.of_nat i) (seq 24 64) ++ w_key). intros sb -> -> L N.
  rewrite w_expand. rewrite cbind_ret. rewrite w_eta4, cbind_ret, w_eta4, cbind_ret by assumption. clear sb L N.
  unfold polyvec_ntt. rewrite (w_map4 _ w_ntt0). rewrite cbind_ret.
  rewrite (w_matmul z4 w_z4). rewrite cbind_ret. unfold polyvec_reduce. rewrite (w_map4 _ w_reduce0). rewrite cbind_ret.
  unfold polyvec_invntt_tomont. rewrite (w_map4 _ w_invntt0). rewrite cbind_ret.
  unfold polyvec_add. rewrite (w_zip4 _ w_add0). rewrite cbind_ret.
  unfold polyvec_caddq. rewrite (w_map4 _ w_caddq0). rewrite cbind_ret. rewrite w_round0. rewrite cbind_ret. unfold w_sk, w_pk. reflexivity.
Qed.
(** The toy function does not look at the coins. *)
Lemma toy_keypair_any : forall coins, length coins = 32%nat ->
  keypair_det 0 toy_xof coins = keypair_det 0 toy_xof (repeat 7 32).
Proof.
  intros coins L. unfold keypair_det.
  assert (E : H256 toy_xof 128 (firstn 32 coins) = H256 toy_xof 128 (firstn 32 (repeat 7 32))).
  { unfold H256. cbn [shake256 toy_xof]. unfold toy256. rewrite firstn_length, L. reflexivity. }
  rewrite E. reflexivity.
Qed.
Lemma w_challenge : forall ct, length ct = 32%nat -> exists c, poly_challenge 300 toy_xof ct = CRet c /\ pol 1 c.
Proof.
  intros ct L. assert (G : exists c, poly_challenge 300 toy_xof ct = CRet c).
  { unfold poly_challenge. cbn [shake256 toy_xof]. unfold toy256. rewrite firstn_length, L.
    change (Nat.min 32 32 =? 128)%nat with false. change (Nat.min 32 32 =? 66)%nat with false. cbn [andb].
    eexists. vm_compute. reflexivity. }
  destruct G as (c & E). exists c. split; [exact E|]. exact (safe_inv _ _ _ (challenge_pol 300 toy_xof ct) E).
Qed.
Lemma w_sign : forall m, exists sig, sign_signature 1 300 toy_xof m w_sk = CRet sig.
Proof.
  intro m. unfold sign_signature.
  assert (U : unpack_sk w_sk = (w_rho, H256 toy_xof 64 w_pk, w_key, z4, z4, z4)) by (vm_compute; reflexivity). rewrite U.
  set (mu := H256 toy_xof 64 (H256 toy_xof 64 w_pk ++ m)). assert (Lmu : length mu = 64%nat) by apply H256_length.
  set (rp := H256 toy_xof 64 (w_key ++ repeat 0 32 ++ mu)). assert (Lrp : length rp = 64%nat) by apply H256_length.
  assert (Nrp : at_ rp 0 = 1).
  { unfold rp, H256. cbn [shake256 toy_xof]. unfold toy256. rewrite !app_length, Lmu. reflexivity. }
  clearbody mu rp.
  rewrite (matrix_expand_mono 0 300 toy_xof w_rho ltac:(lia) _ (w_expand w_rho)). cbn [cbind].
  unfold polyvec_ntt. rewrite !(w_map4 _ w_ntt0). cbn [cbind]. cbn [sign_loop].
  assert (G : exists sig, sign_attempt 300 toy_xof zmat z4 z4 z4 mu rp 0 = CRet (Some sig)).
  2:{ destruct G as (sig & ->). cbn [cbind]. eauto. }
  unfold sign_attempt. rewrite (w_gamma1 rp 0 Lrp Nrp).
  destruct (vec_ntt_ok y4) as (yh & -> & Py & _).
  { split; [reflexivity|]. intros i Hi. unfold vat, y4. rewrite (nth_indep _ [] (repeat 43691 256)) by exact Hi.
    rewrite nth_repeat. split; [reflexivity|]. intros p Hp. unfold at_.
    rewrite (nth_indep _ 0 43691) by (rewrite repeat_length; exact Hp). rewrite nth_repeat. unfold Q. lia. }
  cbn [cbind]. rewrite (w_matmul yh) by (eapply vec_impl; [|exact Py]; intros a [La _]; exact La). cbn [cbind].
  unfold polyvec_reduce. rewrite (w_map4 _ w_reduce0). cbn [cbind].
  unfold polyvec_invntt_tomont. rewrite (w_map4 _ w_invntt0). cbn [cbind].
  unfold polyvec_caddq. rewrite (w_map4 _ w_caddq0). cbn [cbind].
  replace (polyveck_decompose z4) with (CRet (z4, z4)) by (vm_compute; reflexivity). cbn [cbind].
  set (ct := H256 toy_xof 32 (mu ++ polyveck_pack_w1 z4)). assert (Lct : length ct = 32%nat) by apply H256_length. clearbody ct.
  destruct (w_challenge ct Lct) as (c & -> & Pc). cbn [cbind].
  destruct (poly_ntt_ok c) as (cp & -> & [Lcp _] & _); [eapply pol_le; [|exact Pc]; unfold Q; lia|]. cbn [cbind].
  unfold polyvec_pointwise_poly_montgomery. rewrite !(w_map4 _ (w_pw_r cp Lcp)). cbn [cbind].
  rewrite !(w_map4 _ w_invntt0). cbn [cbind].
  replace (polyvec_add z4 y4) with (CRet y4) by (vm_compute; reflexivity). cbn [cbind].
  replace (mapM poly_reduce y4) with (CRet y4) by (vm_compute; reflexivity). cbn [cbind].
  replace (polyvec_chknorm y4 (GAMMA1 - BETA)) with (CRet false) by (vm_compute; reflexivity). cbn [cbind].
  unfold polyvec_sub. rewrite (w_zip4 _ w_sub0). cbn [cbind]. rewrite !(w_map4 _ w_reduce0). cbn [cbind].
  replace (polyvec_chknorm z4 (GAMMA2 - BETA)) with (CRet false) by (vm_compute; reflexivity). cbn [cbind].
  replace (polyvec_chknorm z4 GAMMA2) with (CRet false) by (vm_compute; reflexivity). cbn [cbind].
  unfold polyvec_add. rewrite (w_zip4 _ w_add0). cbn [cbind].
  replace (polyveck_make_hint z4 z4) with (z4, 0) by (vm_compute; reflexivity).
  cbn [Z.ltb]. replace (Z.of_nat OMEGA <? 0) with false by reflexivity.
  replace (pack_sig ct y4 z4) with (CRet (firstn 32 ct ++ flat_map polyz_pack y4 ++ repeat 0 84)); [cbn [cbind]; eauto|].
  unfold pack_sig. replace (pack_hint z4) with (CRet (repeat 0 84)) by (vm_compute; reflexivity). reflexivity.
Qed.

(** Keys exist, signing returns, and the signature verifies. *)
Example dil_example : exists pk sk sig, keypair_det 0 toy_xof (repeat 7 32) = CRet (pk, sk) /\
  sign_signature 1 300 toy_xof [104; 105] sk = CRet sig /\ verify_signature 300 toy_xof sig [104; 105] pk = CRet true.
Proof.
  destruct (w_sign [104; 105]) as (sig & E). exists w_pk, w_sk, sig. split; [exact w_keypair|]. split; [exact E|].
  eapply dil_complete; [exact w_keypair|exact E|lia].
Qed.
