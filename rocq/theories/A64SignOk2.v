(** * A64SignOk2: the AArch64 build of Dilithium2 signs byte for byte, and accepts exactly, as the
    CLEAN build, whenever six blocks of SHAKE128 hold enough candidates for every entry of the
    matrix. *)
From Coq Require Import ZArith List Lia Bool.
From Verif Require Import Base Bits SaberPoly SaberRing DilArith DilNtt DilNttProof DilNttEval DilNttSpec DilPoly DilPack DilCodec2 DilHint DilOps DilSample DilRound DilSign DilCorrect
  AvxMachine AvxSym AvxSymOk AvxNtt AvxPoly AvxSample AvxSignOk AvxSignOk2 A64Machine A64Ntt A64Elem A64Elem2 A64T1 A64Sample A64Sign A64SignOk.
Import ListNotations.
Open Scope Z_scope.
Local Opaque root mred tau H256 poly_challenge ntt invntt_tomont poly_reduce poly_caddq poly_pointwise_montgomery polyw1_pack polyz_pack positions OMEGA
  k_ntt k_invntt k_reduce k_caddq k_pointwise k_pointwise_in k_acc rej_uniform squeeze
  polyvec_ntt polyvec_invntt_tomont polyvec_reduce polyvec_caddq polyvec_pointwise_poly_montgomery polyvec_matrix_pointwise_montgomery polyvec_add polyvec_sub polyvec_shiftl polyvec_chknorm
  polyveck_decompose polyveck_make_hint polyveck_use_hint.

Definition same (u v : polyvec) : Prop := forall i, (i < 4)%nat -> forall p, (p < 256)%nat -> eqq (at_ (vat u i) p) (at_ (vat v i) p).
Lemma same_ev : forall u v, (forall i, (i < 4)%nat -> forall p, (p < 256)%nat -> eqq (ev p (vat u i)) (ev p (vat v i))) -> same u v.
Proof. intros u v H i Hi. apply ev_inj. intros q Hq. apply H; assumption. Qed.

Section Attempt.
Variables (e : ctx64) (fuel : nat) (X : xof) (mat : list polyvec) (s1 s2 t0 s1h s2h t0h s1g s2g t0g : polyvec) (mu rp : bytes) (nonce : Z).
Hypothesis He : ctx64_ok e.
Hypothesis M : matrix mat.
Hypothesis H1 : transformed s1 s1h.  Hypothesis G1 : transformed s1 s1g.
Hypothesis H2 : transformed s2 s2h.  Hypothesis G2 : transformed s2 s2g.
Hypothesis H0 : transformed t0 t0h.  Hypothesis G0 : transformed t0 t0g.

(** c v in both builds: congruent coefficients. *)
Lemma cmul_same : forall c cp cq v vh vg, pol (9 * Q) cp -> (forall p, (p < 256)%nat -> eqq (at_ cp p) (ev p c)) ->
  pol (9 * Q) cq -> (forall p, (p < 256)%nat -> eqq (at_ cq p) (ev p c)) -> transformed v vh -> transformed v vg ->
  exists x r x' r', polyvec_pointwise_poly_montgomery cp vh = CRet x /\ polyvec_invntt_tomont x = CRet r /\ vec (pol INVB) r /\
    mapM (k_pointwise e cq) vg = CRet x' /\ mapM (k_invntt e) x' = CRet r' /\ vec (pol (Q - 1)) r' /\ same r' r.
Proof.
  intros c cp cq v vh vg Pp Ep Pq Eq [Pv Ev] T. destruct (vec_cmul_ok cp c v vh Pp Ep Pv Ev) as (x & r & Ex & Er & Pr & Vr).
  destruct (k_vec_cmul e He cq c v vg Pq Eq T) as (x' & r' & Ex' & Er' & Pr' & Vr').
  exists x, r, x', r'. repeat (split; [assumption|]). apply same_ev. intros i Hi p Hp.
  eapply eqq_trans; [apply Vr'; assumption|]. apply eqq_sym. apply Vr; assumption.
Qed.

Lemma attempt64 : sign_attempt64 e fuel X mat s1g s2g t0g mu rp nonce = sign_attempt fuel X mat s1h s2h t0h mu rp nonce.
Proof.
  unfold sign_attempt64, sign_attempt. rewrite uniform_gamma1_64_ok. cbv zeta.
  pose proof (gamma1_vec_ok X rp nonce) as Y. set (y := polyvecl_uniform_gamma1 X rp nonce) in *. clearbody y.
  assert (Py : vec (pol 131072) y).
  { eapply vec4_pol; [|exact Y]. unfold z_range, GAMMA1. intros x Hx. lia. }
  assert (PyQ : vec (pol Q) y) by (eapply vec_pol_le; [|exact Py]; unfold Q; lia).
  destruct (matrix_mul_ok mat y M PyQ) as (yh & a1 & a2 & r & -> & E3 & E4 & E5 & P & EV).
  cbn [cbind]. rewrite E3. cbn [cbind]. rewrite E4. cbn [cbind]. rewrite E5. cbn [cbind]. clear E3 E4 E5 a1 a2 yh.
  destruct (vec_caddq_ok r) as (w & -> & Sw & Ew).
  { eapply vec_pol_le; [|exact P]. unfold INVB, Q; lia. }
  cbn [cbind].
  destruct (k_vec_ntt e He y PyQ) as (yg & -> & Tg). cbn [cbind].
  destruct (k_matrix_product e He mat y yg M Tg) as (b1 & -> & Pb1 & Vb1). cbn [cbind].
  destruct (k_vec_reduce e He b1) as (b2 & -> & Pb2 & Vb2). { eapply vec_pol_le; [|exact Pb1]. unfold Q; lia. } cbn [cbind].
  destruct (k_vec_invntt e He b2) as (b3 & -> & Pb3 & Vb3). { eapply vec_pol_le; [|exact Pb2]. unfold REDB, Q; lia. } cbn [cbind].
  destruct (k_vec_caddq e He b3 Pb3) as (w' & -> & Sw' & Ew'). cbn [cbind].
  assert (w' = w) as ->.
  { apply vec_std_eq; [exact Sw'|exact Sw|]. apply same_ev. intros i Hi p Hp.
    apply eqq_trans with (y := mrow mat y i p).
    - eapply eqq_trans; [apply ev_eqq; intros j Hj; apply Ew'; assumption|]. eapply eqq_trans; [apply Vb3; assumption|].
      eapply eqq_trans; [apply eqq_mul; [apply Vb2; assumption|apply eqq_refl]|]. apply Vb1; assumption.
    - apply eqq_sym. eapply eqq_trans; [apply ev_eqq; intros j Hj; apply Ew; assumption|]. apply EV; assumption. }
  clear Sw' Ew' Vb3 Pb3 b3 Vb2 Pb2 b2 Vb1 Pb1 b1 Tg yg EV Ew P r.
  destruct (vec_decompose_ok w Sw) as (w1 & w0 & -> & V1 & V0 & D). cbn [cbind]. clear D.
  set (ct := H256 X 32 (mu ++ polyveck_pack_w1 w1)). clearbody ct.
  destruct (challenge_pol fuel X ct) as [->|(c & -> & Pc)]; [cbn [cbind]; reflexivity|]. cbn [cbind].
  assert (PcQ : pol Q c) by (eapply pol_le; [|exact Pc]; unfold Q; lia).
  destruct (poly_ntt_ok c PcQ) as (cp & -> & Pcp & EVc). destruct (k_ntt_ok e He c PcQ) as (cq & -> & Pcq & EVq). cbn [cbind].
  destruct (cmul_same c cp cq s1 s1h s1g Pcp EVc Pcq EVq H1 G1) as (x1 & z1 & x1' & z1' & -> & Ez & Pz & -> & Ez' & Pz' & Sz). cbn [cbind]. rewrite Ez, Ez'. cbn [cbind]. clear Ez Ez' x1 x1'.
  destruct (vec_add_ok z1 y INVB 131072 Pz Py) as (z2 & -> & Pz2 & Az2); [unfold INVB; lia|].
  destruct (vec_add_ok z1' y (Q - 1) 131072 Pz' Py) as (z2' & -> & Pz2' & Az2'); [unfold Q; lia|]. cbn [cbind].
  destruct (vec_reduce_ok z2) as (z & -> & Pzz & Rz). { eapply vec_pol_le; [|exact Pz2]. unfold INVB; lia. }
  destruct (k_vec_reduce e He z2') as (z' & -> & Pzz' & Rz'). { eapply vec_pol_le; [|exact Pz2']. unfold Q; lia. } cbn [cbind].
  destruct (vec_chknorm_ok z (GAMMA1 - BETA)) as (b & -> & Nz). { eapply vec_pol_le; [|exact Pzz]. unfold REDB; lia. } { unfold GAMMA1, BETA; lia. }
  destruct (vec_chknorm_ok z' (GAMMA1 - BETA)) as (b' & -> & Nz'). { eapply vec_pol_le; [|exact Pzz']. unfold REDB; lia. } { unfold GAMMA1, BETA; lia. }
  cbn [cbind].
  destruct (norm_agree z' z (GAMMA1 - BETA) b' b) as [[-> ->]|(-> & -> & _ & ->)]; [unfold GAMMA1, BETA; lia|exact Pzz'|exact Pzz| |exact Nz'|exact Nz|reflexivity|].
  { intros i Hi p Hp. eapply eqq_trans; [apply Rz'; assumption|]. eapply eqq_trans; [|apply eqq_sym, Rz; assumption].
    rewrite Az2, Az2' by assumption. apply eqq_add; [apply Sz; assumption|apply eqq_refl]. }
  clear Nz Nz' Rz Rz' Pzz' Az2 Az2' Pz2 Pz2' z2 z2' Sz Pz Pz' z1 z1'.
  destruct (cmul_same c cp cq s2 s2h s2g Pcp EVc Pcq EVq H2 G2) as (x1 & h1 & x1' & h1' & -> & Eh & Ph & -> & Eh' & Ph' & Sh). cbn [cbind]. rewrite Eh, Eh'. cbn [cbind]. clear Eh Eh' x1 x1'.
  assert (Pw0 : vec (pol 95232) w0) by (eapply vec4_pol; [|exact V0]; unfold GAMMA2; intros x Hx; lia).
  destruct (vec_sub_ok w0 h1 95232 INVB Pw0 Ph) as (u0 & -> & Pu0 & Au0); [unfold INVB; lia|].
  destruct (vec_sub_ok w0 h1' 95232 (Q - 1) Pw0 Ph') as (u0' & -> & Pu0' & Au0'); [unfold Q; lia|]. cbn [cbind].
  destruct (vec_reduce_ok u0) as (u & -> & Pu & Ru). { eapply vec_pol_le; [|exact Pu0]. unfold INVB; lia. }
  destruct (k_vec_reduce e He u0') as (u' & -> & Pu' & Ru'). { eapply vec_pol_le; [|exact Pu0']. unfold Q; lia. } cbn [cbind].
  destruct (vec_chknorm_ok u (GAMMA2 - BETA)) as (b & -> & Nz). { eapply vec_pol_le; [|exact Pu]. unfold REDB; lia. } { unfold GAMMA2, BETA; lia. }
  destruct (vec_chknorm_ok u' (GAMMA2 - BETA)) as (b' & -> & Nz'). { eapply vec_pol_le; [|exact Pu']. unfold REDB; lia. } { unfold GAMMA2, BETA; lia. }
  cbn [cbind].
  destruct (norm_agree u' u (GAMMA2 - BETA) b' b) as [[-> ->]|(-> & -> & _ & ->)]; [unfold GAMMA2, BETA; lia|exact Pu'|exact Pu| |exact Nz'|exact Nz|reflexivity|].
  { intros i Hi p Hp. eapply eqq_trans; [apply Ru'; assumption|]. eapply eqq_trans; [|apply eqq_sym, Ru; assumption].
    rewrite Au0, Au0' by assumption. apply eqq_sub; [apply eqq_refl|apply Sh; assumption]. }
  clear Nz Nz' Ru Ru' Pu' Au0 Au0' Pu0 Pu0' u0 u0' Sh Ph Ph' h1 h1'.
  destruct (cmul_same c cp cq t0 t0h t0g Pcp EVc Pcq EVq H0 G0) as (x1 & h1 & x1' & h1' & -> & Eh & Ph & -> & Eh' & Ph' & Sh). cbn [cbind]. rewrite Eh, Eh'. cbn [cbind]. clear Eh Eh' x1 x1'.
  destruct (vec_reduce_ok h1) as (t & -> & Pt & Rt). { eapply vec_pol_le; [|exact Ph]. unfold INVB; lia. }
  destruct (k_vec_reduce e He h1') as (t' & -> & Pt' & Rt'). { eapply vec_pol_le; [|exact Ph']. unfold Q; lia. } cbn [cbind].
  destruct (vec_chknorm_ok t GAMMA2) as (b & -> & Nz). { eapply vec_pol_le; [|exact Pt]. unfold REDB; lia. } { unfold GAMMA2; lia. }
  destruct (vec_chknorm_ok t' GAMMA2) as (b' & -> & Nz'). { eapply vec_pol_le; [|exact Pt']. unfold REDB; lia. } { unfold GAMMA2; lia. }
  cbn [cbind].
  destruct (norm_agree t' t GAMMA2 b' b) as [[-> ->]|(-> & -> & _ & ->)]; [unfold GAMMA2; lia|exact Pt'|exact Pt| |exact Nz'|exact Nz|reflexivity|reflexivity].
  intros i Hi p Hp. eapply eqq_trans; [apply Rt'; assumption|]. eapply eqq_trans; [|apply eqq_sym, Rt; assumption]. apply Sh; assumption.
Qed.
End Attempt.

Local Opaque sign_attempt sign_attempt64.
Lemma loop64 : forall e fuel X mat s1 s2 t0 s1h s2h t0h s1g s2g t0g mu rp, ctx64_ok e -> matrix mat ->
  transformed s1 s1h -> transformed s1 s1g -> transformed s2 s2h -> transformed s2 s2g -> transformed t0 t0h -> transformed t0 t0g ->
  forall att nonce, sign_loop64 att e fuel X mat s1g s2g t0g mu rp nonce = sign_loop att fuel X mat s1h s2h t0h mu rp nonce.
Proof.
  intros e fuel X mat s1 s2 t0 s1h s2h t0h s1g s2g t0g mu rp He M H1 G1 H2 G2 H0 G0. induction att as [|att IH]; intro nonce; [reflexivity|].
  cbn [sign_loop64 sign_loop]. rewrite (attempt64 e fuel X mat s1 s2 t0 s1h s2h t0h s1g s2g t0g mu rp nonce He M H1 G1 H2 G2 H0 G0).
  destruct (sign_attempt fuel X mat s1h s2h t0h mu rp nonce) as [[s|]| |]; cbn [cbind]; try reflexivity. apply IH.
Qed.
Local Opaque sign_loop sign_loop64 matrix_expand64 polyvec_matrix_expand.

(** For every secret key, message, SHAKE, budget, contents of the registers and of uninitialised
    memory: AArch64 signing returns the bytes CLEAN signing returns, rejects as many attempts and
    never leaves an array. *)
Theorem a64_sign_signature : forall att e f X m sk, ctx64_ok e -> length sk = 2560%nat -> six_blocks_suffice X (firstn 32 sk) ->
  sign_signature64 att e (S f) X m sk = sign_signature att (S f) X m sk.
Proof.
  intros att e f X m sk He L Six. unfold sign_signature64, sign_signature.
  destruct (unpack_sk sk) as [[[[[rho tr] key] t0] s1] s2] eqn:U. cbv zeta.
  assert (V : rho = firstn 32 sk /\ vec4 t0_range t0 /\ vec4 eta_range s1 /\ vec4 eta_range s2).
  { unfold unpack_sk in U. apply pair_equal_spec in U. destruct U as [U <-]. apply pair_equal_spec in U. destruct U as [U <-].
    apply pair_equal_spec in U. destruct U as [U <-]. apply pair_equal_spec in U. destruct U as [U _]. apply pair_equal_spec in U. destruct U as [<- _].
    split; [reflexivity|]. split; [|split].
    - apply (vec_unpack_vec4 t0_range polyt0_unpack 416 sk 896); auto using polyt0_unpack_range, polyt0_unpack_length. lia.
    - apply (vec_unpack_vec4 eta_range polyeta_unpack 96 sk 128); auto using polyeta_unpack_range, polyeta_unpack_length. lia.
    - apply (vec_unpack_vec4 eta_range polyeta_unpack 96 sk 512); auto using polyeta_unpack_range, polyeta_unpack_length. lia. }
  destruct V as (-> & V0 & V1 & V2). clear U.
  destruct (matrix_expand64_ok f X (firstn 32 sk) Six) as (mat & -> & E). rewrite E.
  pose proof (safe_inv _ _ _ (matrix_expand_ok (S f) X (firstn 32 sk)) E) as M. clear E. cbn [cbind].
  assert (Q1 : vec (pol Q) s1) by (eapply vec4_pol; [|exact V1]; unfold eta_range, Q; intros; lia).
  assert (Q2 : vec (pol Q) s2) by (eapply vec4_pol; [|exact V2]; unfold eta_range, Q; intros; lia).
  assert (Q0 : vec (pol Q) t0) by (eapply vec4_pol; [|exact V0]; unfold t0_range, Q; intros; lia).
  destruct (vec_ntt_ok s1 Q1) as (s1h & -> & T1). destruct (vec_ntt_ok s2 Q2) as (s2h & -> & T2). destruct (vec_ntt_ok t0 Q0) as (t0h & -> & T0).
  destruct (k_vec_ntt e He s1 Q1) as (s1g & -> & R1). destruct (k_vec_ntt e He s2 Q2) as (s2g & -> & R2). destruct (k_vec_ntt e He t0 Q0) as (t0g & -> & R0). cbn [cbind].
  apply (loop64 e (S f) X mat s1 s2 t0); assumption.
Qed.

(** ** Verification *)
Lemma k_unpack_pk_ok : forall e pk, ctx64_ok e -> length pk = 1312%nat -> is_bytes pk -> k_unpack_pk e pk = CRet (unpack_pk pk).
Proof.
  intros e pk He L B. unfold k_unpack_pk, unpack_pk.
  rewrite (mapM_ret _ (fun i => polyt1_unpack (slice pk (32 + i * 320) 320))); [reflexivity|].
  intros i Hi. apply in_seq in Hi. rewrite polyt1_unpack64_ok; [reflexivity|apply He|apply slice_length; lia|].
  unfold slice. apply is_bytes_firstn, is_bytes_skipn. exact B.
Qed.
Local Opaque k_unpack_pk unpack_pk.
(** The commitment the AArch64 verifier recomputes, for whatever matrix it expanded. *)
Lemma verify64_run : forall e fuel X (sig m pk rho : bytes) t1 c z h cp mat, ctx64_ok e -> length sig = 2420%nat ->
  length pk = 1312%nat -> is_bytes pk ->
  unpack_pk pk = (rho, t1) -> vec4 t1_range t1 -> unpack_sig sig = Some (c, z, h) ->
  vec4 (fun x => Z.abs x < GAMMA1 - BETA) z -> poly_challenge fuel X c = CRet cp ->
  matrix_expand64 fuel X rho = CRet mat -> matrix mat ->
  exists w, recomputed mat z t1 cp w /\
    verify_signature64 e fuel X sig m pk =
      (do w1 <- polyveck_use_hint w h ;;
       CRet (beq c (H256 X 32 (H256 X 64 (H256 X 64 (firstn 1312 pk) ++ m) ++ polyveck_pack_w1 w1)))).
Proof.
  intros e fuel X sig m pk rho t1 c z h cp mat He Ls L B Up V1 Us Vz Ec Em M. unfold verify_signature64.
  rewrite Ls, Nat.eqb_refl. cbn [negb]. rewrite k_unpack_pk_ok by assumption. cbn [cbind]. rewrite Up, Us.
  assert (Pz : vec (pol 131072) z). { eapply vec4_pol; [|exact Vz]. unfold GAMMA1, BETA. intros; lia. }
  destruct (vec_chknorm_ok z (GAMMA1 - BETA)) as (b & -> & Nz). { eapply vec_pol_le; [|exact Pz]. lia. } { unfold GAMMA1, BETA; lia. }
  assert (b = false) as ->. { apply Nz. apply vec4_at in Vz. intros i Hi p Hp. apply Vz; assumption. }
  clear Nz. cbn [cbind]. rewrite Ec, Em. cbn [cbind].
  pose proof (safe_inv _ _ _ (challenge_pol fuel X c) Ec) as Pc.
  destruct (k_vec_ntt e He z) as (zh & -> & Tz). { eapply vec_pol_le; [|exact Pz]. unfold Q; lia. }
  cbn [cbind]. destruct (k_matrix_product e He mat z zh M Tz) as (w & -> & Pw & Ew). cbn [cbind].
  destruct (k_ntt_ok e He cp) as (ch & -> & Pch & Tc). { eapply pol_le; [|exact Pc]. unfold Q; lia. }
  cbn [cbind]. destruct (vec_shiftl_ok t1) as (ts & -> & Pts & As); [apply vec4_at in V1; exact V1|]. cbn [cbind].
  destruct (k_vec_ntt e He ts Pts) as (th & -> & Pth & Tt). cbn [cbind].
  destruct (k_vec_pointwise e He ch th Pch Pth) as (ct & _ & -> & Pct & Et). cbn [cbind].
  destruct (vec_sub_ok w ct Q Q Pw Pct) as (u & -> & Pu & Au); [unfold Q; lia|]. cbn [cbind].
  destruct (k_vec_reduce e He u) as (u' & -> & Pu' & Ru). { eapply vec_pol_le; [|exact Pu]. unfold Q; lia. }
  cbn [cbind]. destruct (k_vec_invntt e He u') as (r & -> & Pr & Er). { eapply vec_pol_le; [|exact Pu']. unfold REDB, Q; lia. }
  cbn [cbind]. destruct (k_vec_caddq e He r Pr) as (w' & -> & Sw & Rw). cbn [cbind].
  exists w'. split; [|reflexivity]. split; [exact Sw|]. intros i Hi p Hp.
  eapply eqq_trans with (y := ev p (vat r i)); [apply ev_eqq; intros j Hj; apply Rw; assumption|].
  eapply eqq_trans; [apply Er; assumption|].
  assert (G0 : eqq (ev p (vat ts i)) (ev p (vat t1 i) * 8192)).
  { rewrite Z.mul_comm. apply ev_scal. intros j Hj. rewrite As by assumption. rewrite Z.mul_comm. apply eqq_refl. }
  pose proof (Ru i Hi p Hp) as G1. rewrite Au in G1 by assumption.
  pose proof (Ew i Hi p Hp) as G2. pose proof (Et i Hi p Hp) as G3. pose proof (Tc p Hp) as G4. pose proof (Tt i Hi p Hp) as G5.
  assert (G6 : eqq (at_ (vat ct i) p * 4294967296) (ev p cp * (ev p (vat t1 i) * 8192))).
  { eapply eqq_trans; [exact G3|]. apply eqq_mul; [exact G4|]. eapply eqq_trans; [exact G5|exact G0]. }
  eapply eqq_trans; [apply eqq_mul; [exact G1|apply eqq_refl]|].
  rewrite Z.mul_sub_distr_r. apply eqq_sub; assumption.
Qed.
(** A signature that does not reach the commitment, in both builds. *)
Lemma verify64_early : forall e fuel X sig m pk, ctx64_ok e -> is_bytes sig -> length pk = 1312%nat -> is_bytes pk ->
  (exists b, verify_signature64 e fuel X sig m pk = CRet b /\ verify_signature fuel X sig m pk = CRet b) \/
  (verify_signature64 e fuel X sig m pk = CFuel /\ verify_signature fuel X sig m pk = CFuel) \/
  exists c z h cp t1, length sig = 2420%nat /\ unpack_pk pk = (firstn 32 pk, t1) /\ vec4 t1_range t1 /\ unpack_sig sig = Some (c, z, h) /\
    length h = 4%nat /\ hint_vec h /\ vec4 (fun x => Z.abs x < GAMMA1 - BETA) z /\ poly_challenge fuel X c = CRet cp.
Proof.
  intros e fuel X sig m pk He Bs L B.
  pose proof (unpack_pk_vec pk L) as V1. destruct (unpack_pk pk) as [rho t1] eqn:Up. cbn [snd] in V1.
  assert (rho = firstn 32 pk) as -> by (with_strategy transparent [unpack_pk] (unfold unpack_pk in Up); apply pair_equal_spec in Up; destruct Up as [<- _]; reflexivity).
  unfold verify_signature64, verify_signature. rewrite k_unpack_pk_ok by assumption. cbn [cbind]. rewrite Up.
  destruct (Nat.eqb_spec (length sig) 2420) as [Ls|Ls]; [|left; exists false; split; reflexivity]. cbn [negb].
  destruct (unpack_sig sig) as [[[c z] h]|] eqn:Us; [|left; exists false; split; reflexivity].
  destruct (pack_unpack_sig sig c z h Ls Bs Us) as (Lc & Vz & Lh & Vh & _).
  assert (Pz : vec (pol 131072) z). { eapply vec4_pol; [|exact Vz]. unfold z_range, GAMMA1. intros; lia. }
  destruct (vec_chknorm_ok z (GAMMA1 - BETA)) as (b & -> & Nz). { eapply vec_pol_le; [|exact Pz]. lia. } { unfold GAMMA1, BETA; lia. }
  cbn [cbind]. destruct b; [left; exists false; split; reflexivity|].
  destruct (challenge_pol fuel X c) as [->|(cp & Ec & Pc)]; [right; left; cbn [cbind]; split; reflexivity|].
  right; right. exists c, z, h, cp, t1. split; [exact Ls|]. split; [reflexivity|]. split; [exact V1|]. split; [reflexivity|]. split; [exact Lh|]. split; [exact Vh|]. split; [|exact Ec].
  apply vec4_at. split; [apply Pz|]. intros i Hi. split; [apply (proj2 Pz i Hi)|]. intros p Hp. apply (proj1 Nz eq_refl i Hi p Hp).
Qed.
(** For every signature, message, public key, SHAKE, budget and initial contents of registers and
    memory: the AArch64 verifier decides as the CLEAN one. *)
Theorem a64_verify_signature : forall e f X sig m pk, ctx64_ok e -> is_bytes sig -> length pk = 1312%nat -> is_bytes pk -> six_blocks_suffice X (firstn 32 pk) ->
  verify_signature64 e (S f) X sig m pk = verify_signature (S f) X sig m pk.
Proof.
  intros e f X sig m pk He Bs L B Six.
  destruct (verify64_early e (S f) X sig m pk He Bs L B) as [(b & -> & ->)|[[-> ->]|(c & z & h & cp & t1 & Ls & Up & V1 & Us & _ & _ & Vz & Ec)]]; [reflexivity|reflexivity|].
  destruct (matrix_expand64_ok f X (firstn 32 pk) Six) as (mat & Em' & Em).
  pose proof (safe_inv _ _ _ (matrix_expand_ok (S f) X (firstn 32 pk)) Em) as M.
  destruct (verify_run (S f) X sig m pk (firstn 32 pk) t1 c z h cp mat Ls Up V1 Us Vz Ec Em) as (wc & Rc & ->).
  destruct (verify64_run e (S f) X sig m pk (firstn 32 pk) t1 c z h cp mat He Ls L B Up V1 Us Vz Ec Em' M) as (w & Rw & ->).
  rewrite (recomputed_unique mat z t1 cp w wc Rw Rc). reflexivity.
Qed.
Local Opaque verify_signature verify_signature64.
Theorem a64_crypto_sign_open : forall e f X sm pk, ctx64_ok e -> is_bytes sm -> length pk = 1312%nat -> is_bytes pk -> six_blocks_suffice X (firstn 32 pk) ->
  crypto_sign_open64 e (S f) X sm pk = crypto_sign_open (S f) X sm pk.
Proof.
  intros e f X sm pk He Bs L B Six. unfold crypto_sign_open64, crypto_sign_open. destruct (length sm <? 2420)%nat; [reflexivity|]. cbv zeta.
  rewrite a64_verify_signature; [reflexivity|exact He|apply is_bytes_firstn; exact Bs|exact L|exact B|exact Six].
Qed.
