(** * DilCorrect: key generation, signing and verification of sign.c step by step. *)
From Coq Require Import ZArith List Lia Bool.
From Verif Require Import Base Bits SaberPoly Ring SaberRing DilArith DilNtt DilNttProof DilNttEval DilNttSpec
  DilPoly DilPack DilCodec DilCodec2 DilHint DilOps DilSample DilRound DilSign.
Import ListNotations.
Open Scope Z_scope.
Local Opaque root positions ev.

Lemma safe_bind_eq : forall {A B} (x : crun A) (f : A -> crun B) P R,
  safe x P -> (forall a, x = CRet a -> P a -> safe (f a) R) -> safe (cbind x f) R.
Proof. intros A B x f P R [->|(a & -> & Pa)] H; [left; reflexivity|]. cbn [cbind]. apply H; [reflexivity|exact Pa]. Qed.

Lemma H256_length : forall X n b, length (H256 X n b) = n. Proof. intros. apply squeeze_length. Qed.
Lemma H256_bytes : forall X n b, is_bytes (H256 X n b). Proof. intros. apply squeeze_bytes. Qed.
Lemma small_range : forall v, vec (pol 2) v -> vec4 (fun x => -2 <= x <= 2) v.
Proof.
  intros v V. apply vec4_at. eapply vec_impl; [|exact V]. intros a [L B]. split; [exact L|].
  intros p Hp. specialize (B p Hp). lia.
Qed.

(** A polynomial in terms of the values it takes. *)
Lemma ev_lin : forall r c a b p, (forall i, (i < 256)%nat -> eqq (at_ r i) (at_ a i * c + at_ b i)) ->
  eqq (ev p r) (ev p a * c + ev p b).
Proof.
  intros r c a b p H.
  set (ac := map (fun i => at_ a i * c) (seq 0 256)).
  assert (A : forall i, (i < 256)%nat -> at_ ac i = at_ a i * c).
  { intros i Hi. unfold ac. apply (nth_map_seq (fun i => at_ a i * c)). exact Hi. }
  clearbody ac. eapply eqq_trans.
  - apply (ev_add r ac b). intros i Hi. rewrite A by exact Hi. apply H. exact Hi.
  - apply eqq_add; [|apply eqq_refl]. rewrite Z.mul_comm. apply ev_scal. intros i Hi. rewrite A by exact Hi.
    rewrite Z.mul_comm. apply eqq_refl.
Qed.

(** ** Key generation *)
(** What key generation returns: [pk] and [sk] encode a seed, small secrets [s1], [s2] and the
    two parts of t = A s1 + s2. *)
Definition key_pair (fuel : nat) (X : xof) (coins pk sk : bytes) : Prop :=
  exists rho key mat t1 t0 s1 s2,
    (rho = slice (H256 X 128 (firstn 32 coins)) 0 32 /\ key = slice (H256 X 128 (firstn 32 coins)) 96 32 /\
     polyvec_uniform_eta fuel X (slice (H256 X 128 (firstn 32 coins)) 32 64) 0 = CRet s1 /\
     polyvec_uniform_eta fuel X (slice (H256 X 128 (firstn 32 coins)) 32 64) 4 = CRet s2) /\
    length rho = 32%nat /\ length key = 32%nat /\ polyvec_matrix_expand fuel X rho = CRet mat /\ matrix mat /\
    vec4 (fun x => -2 <= x <= 2) s1 /\ vec4 (fun x => -2 <= x <= 2) s2 /\ vec4 t1_range t1 /\ vec4 t0_range t0 /\
    pk = pack_pk rho t1 /\ sk = pack_sk rho (H256 X 64 pk) key t0 s1 s2 /\
    (forall i, (i < 4)%nat -> forall p, (p < 256)%nat ->
       eqq (ev p (vat t1 i) * 8192 + ev p (vat t0 i)) (mrow mat s1 i p + ev p (vat s2 i))).

Lemma keypair_ok : forall fuel X coins,
  safe (keypair_det fuel X coins) (fun ks => key_pair fuel X coins (fst ks) (snd ks)).
Proof.
  intros fuel X coins. unfold keypair_det.
  unfold key_pair. set (sb := H256 X 128 (firstn 32 coins)). assert (Ls : length sb = 128%nat) by apply H256_length.
  assert (Lr : length (slice sb 0 32) = 32%nat) by (apply slice_length; lia).
  assert (Lk : length (slice sb 96 32) = 32%nat) by (apply slice_length; lia).
  set (rho := slice sb 0 32) in *. set (key := slice sb 96 32) in *. set (rp := slice sb 32 64).
  clearbody rho key rp. clear sb Ls.
  eapply safe_bind_eq; [apply matrix_expand_ok|]. intros mat Em M.
  eapply safe_bind_eq; [apply uniform_eta_vec_ok|]. intros s1 Es1 S1.
  eapply safe_bind_eq; [apply uniform_eta_vec_ok|]. intros s2 Es2 S2.
  destruct (matrix_mul_ok mat s1 M) as (zh & w & w' & r & -> & E2 & E3 & E4 & P & EV).
  { eapply vec_pol_le; [|exact S1]. unfold Q; lia. }
  cbn [cbind]. rewrite E2. cbn [cbind]. rewrite E3. cbn [cbind]. rewrite E4. cbn [cbind].
  destruct (vec_add_ok r s2 INVB 2 P S2) as (t & -> & Pt & At); [unfold INVB; lia|]. cbn [cbind].
  destruct (vec_caddq_ok t) as (t' & -> & St & Et).
  { eapply vec_pol_le; [|exact Pt]. unfold INVB, Q; lia. }
  cbn [cbind]. destruct (vec_power2round_ok t' St) as (t1 & t0 & -> & V1 & V0 & SP). cbn [cbind].
  apply safe_ret. cbn [fst snd]. exists rho, key, mat, t1, t0, s1, s2. split; [auto|].
  repeat (split; [solve [assumption | reflexivity | apply small_range; assumption]|]).
  intros i Hi p Hp.
  eapply eqq_trans with (y := ev p (vat t' i)).
  - apply eqq_sym. apply ev_lin. intros j Hj. rewrite SP by assumption. apply eqq_refl.
  - eapply eqq_trans.
    + apply (ev_add (vat t' i) (vat r i) (vat s2 i)). intros j Hj. rewrite <- At by assumption. apply Et; assumption.
    + apply eqq_add; [|apply eqq_refl]. apply EV; assumption.
Qed.

(** ** One signing attempt *)
(** A vector and its transform. *)
Definition transformed (v vh : polyvec) : Prop :=
  vec (pol (9 * Q)) vh /\
  (forall i, (i < 4)%nat -> forall p, (p < 256)%nat -> eqq (at_ (vat vh i) p) (ev p (vat v i))).

(** What an attempt that is not rejected returns. *)
Definition accepted (fuel : nat) (X : xof) (mat : list polyvec) (s1 s2 t0 : polyvec) (mu sig : bytes) : Prop :=
  exists ctilde c z h w1 a0 g,
    pack_sig ctilde z h = CRet sig /\
    ctilde = H256 X 32 (mu ++ polyveck_pack_w1 w1) /\ poly_challenge fuel X ctilde = CRet c /\
    vec4 (fun x => Z.abs x < GAMMA1 - BETA) z /\
    length h = 4%nat /\ hint_vec h /\ (length (flat_map positions h) <= OMEGA)%nat /\
    vec4 high_range w1 /\ vec4 (fun x => Z.abs x < 2 * GAMMA2 - BETA) a0 /\
    (forall i, (i < 4)%nat -> forall p, (p < 256)%nat -> at_ (vat h i) p = make_hint (at_ (vat a0 i) p) (at_ (vat w1 i) p)) /\
    vec (fun a => length a = 256%nat) g /\
    (forall i, (i < 4)%nat -> forall p, (p < 256)%nat -> eqq (at_ (vat g i) p) (at_ (vat w1 i) p * (2 * GAMMA2) + at_ (vat a0 i) p)) /\
    (forall i, (i < 4)%nat -> forall p, (p < 256)%nat ->
       eqq (ev p (vat g i)) (mrow mat z i p - ev p c * (mrow mat s1 i p + ev p (vat s2 i)) + ev p c * ev p (vat t0 i))).

Lemma gamma1_vec_ok : forall X seed nonce, vec4 z_range (polyvecl_uniform_gamma1 X seed nonce).
Proof.
  intros. unfold polyvecl_uniform_gamma1. split; [rewrite map_length, seq_length; reflexivity|].
  apply Forall_map, Forall_forall. intros i _. apply poly_uniform_gamma1_ok.
Qed.
Lemma challenge_pol : forall fuel X seed, safe (poly_challenge fuel X seed) (pol 1).
Proof.
  intros. eapply safe_impl; [apply poly_challenge_ok|]. intros c (L & F & _). split; [exact L|].
  intros p Hp. pose proof (proj1 (pol_Forall ternary c L) F p Hp) as T. unfold ternary in T. lia.
Qed.
Lemma decomposed_eqq : forall a a1 a0, decomposed a a1 a0 -> eqq (a1 * (2 * GAMMA2) + a0) a.
Proof.
  intros a a1 a0 [(A & B & C)|(A & B & C)]; [subst a; apply eqq_refl|].
  subst a1 a. exists (-1). ring.
Qed.
Lemma mrow_lin : forall mat x y z c i p, (forall j, (j < 4)%nat -> eqq (ev p (vat z j)) (c * ev p (vat x j) + ev p (vat y j))) ->
  eqq (mrow mat z i p) (c * mrow mat x i p + mrow mat y i p).
Proof.
  intros mat x y z c i p H. unfold mrow.
  pose proof (H 0%nat ltac:(lia)) as H0. pose proof (H 1%nat ltac:(lia)) as H1.
  pose proof (H 2%nat ltac:(lia)) as H2. pose proof (H 3%nat ltac:(lia)) as H3. clear H. revert H0 H1 H2 H3.
  generalize (mentry mat i 0 p) (mentry mat i 1 p) (mentry mat i 2 p) (mentry mat i 3 p).
  generalize (ev p (vat z 0)) (ev p (vat z 1)) (ev p (vat z 2)) (ev p (vat z 3)).
  generalize (ev p (vat x 0)) (ev p (vat x 1)) (ev p (vat x 2)) (ev p (vat x 3)).
  generalize (ev p (vat y 0)) (ev p (vat y 1)) (ev p (vat y 2)) (ev p (vat y 3)).
  intros y0 y1 y2 y3 x0 x1 x2 x3 z0 z1 z2 z3 m0 m1 m2 m3 [k0 ->] [k1 ->] [k2 ->] [k3 ->].
  exists (m0 * k0 + m1 * k1 + m2 * k2 + m3 * k3). ring.
Qed.

Lemma sign_attempt_ok : forall fuel X mat s1 s2 t0 s1h s2h t0h mu rhoprime nonce, matrix mat ->
  transformed s1 s1h -> transformed s2 s2h -> transformed t0 t0h ->
  safe (sign_attempt fuel X mat s1h s2h t0h mu rhoprime nonce)
    (fun r => match r with None => True | Some sig => accepted fuel X mat s1 s2 t0 mu sig end).
Proof.
  intros fuel X mat s1 s2 t0 s1h s2h t0h mu rhoprime nonce M [P1 T1] [P2 T2] [P0 T0].
  unfold sign_attempt.
  pose proof (gamma1_vec_ok X rhoprime nonce) as Y. set (y := polyvecl_uniform_gamma1 X rhoprime nonce) in *. clearbody y.
  assert (Py : vec (pol 131072) y).
  { eapply vec4_pol; [|exact Y]. unfold z_range, GAMMA1. intros x Hx. lia. }
  destruct (matrix_mul_ok mat y M) as (zh & w & w' & r & -> & E2 & E3 & E4 & P & EV).
  { eapply vec_pol_le; [|exact Py]. unfold Q; lia. }
  cbn [cbind]. rewrite E2. cbn [cbind]. rewrite E3. cbn [cbind]. rewrite E4. cbn [cbind]. clear E2 E3 E4 zh w w'.
  destruct (vec_caddq_ok r) as (w & -> & Sw & Ew).
  { eapply vec_pol_le; [|exact P]. unfold INVB, Q; lia. }
  cbn [cbind]. destruct (vec_decompose_ok w Sw) as (w1 & w0 & -> & V1 & V0 & D). cbn [cbind].
  set (ct := H256 X 32 (mu ++ polyveck_pack_w1 w1)).
  eapply safe_bind_eq; [apply challenge_pol|]. intros c Ec Pc.
  destruct (poly_ntt_ok c) as (cp & -> & Pcp & EVc).
  { eapply pol_le; [|exact Pc]. unfold Q; lia. }
  cbn [cbind].
  destruct (vec_cmul_ok cp c s1 s1h Pcp EVc P1 T1) as (x1 & z1 & -> & E & Pz1 & EV1). cbn [cbind]. rewrite E. cbn [cbind]. clear E x1.
  destruct (vec_add_ok z1 y INVB 131072 Pz1 Py) as (z2 & -> & Pz2 & Az2); [unfold INVB; lia|]. cbn [cbind].
  destruct (vec_reduce_ok z2) as (z & -> & Pz & Rz).
  { eapply vec_pol_le; [|exact Pz2]. unfold INVB; lia. }
  cbn [cbind].
  destruct (vec_chknorm_ok z (GAMMA1 - BETA)) as (b & -> & Nz).
  { eapply vec_pol_le; [|exact Pz]. unfold REDB; lia. } { unfold GAMMA1, BETA; lia. }
  cbn [cbind]. destruct b; [apply safe_ret; exact Logic.I|]. pose proof (proj1 Nz eq_refl) as Bz. clear Nz.
  destruct (vec_cmul_ok cp c s2 s2h Pcp EVc P2 T2) as (x1 & h1 & -> & E & Ph1 & EV2). cbn [cbind]. rewrite E. cbn [cbind]. clear E x1.
  assert (Pw0 : vec (pol 95232) w0) by (eapply vec4_pol; [|exact V0]; unfold GAMMA2; intros x Hx; lia).
  destruct (vec_sub_ok w0 h1 95232 INVB Pw0 Ph1) as (u0 & -> & Pu0 & Au0); [unfold INVB; lia|]. cbn [cbind].
  destruct (vec_reduce_ok u0) as (u & -> & Pu & Ru).
  { eapply vec_pol_le; [|exact Pu0]. unfold INVB; lia. }
  cbn [cbind].
  destruct (vec_chknorm_ok u (GAMMA2 - BETA)) as (b & -> & Nu).
  { eapply vec_pol_le; [|exact Pu]. unfold REDB; lia. } { unfold GAMMA2, BETA; lia. }
  cbn [cbind]. destruct b; [apply safe_ret; exact Logic.I|]. pose proof (proj1 Nu eq_refl) as Bu. clear Nu.
  destruct (vec_cmul_ok cp c t0 t0h Pcp EVc P0 T0) as (x1 & h2 & -> & E & Ph2 & EV3). cbn [cbind]. rewrite E. cbn [cbind]. clear E x1.
  destruct (vec_reduce_ok h2) as (h3 & -> & Ph3 & Rh3).
  { eapply vec_pol_le; [|exact Ph2]. unfold INVB; lia. }
  cbn [cbind].
  destruct (vec_chknorm_ok h3 GAMMA2) as (b & -> & Nh).
  { eapply vec_pol_le; [|exact Ph3]. unfold REDB; lia. } { unfold GAMMA2; lia. }
  cbn [cbind]. destruct b; [apply safe_ret; exact Logic.I|]. pose proof (proj1 Nh eq_refl) as Bh. clear Nh.
  destruct (vec_add_ok u h3 REDB REDB Pu Ph3) as (a0 & -> & Pa0 & Aa0); [unfold REDB; lia|]. cbn [cbind].
  destruct (vec_make_hint_ok a0 w1) as (h & n & -> & Lh & Vh & Nn & Ah).
  { eapply vec_impl; [|exact Pa0]. intros a [L _]; exact L. }
  { apply vec4_at in V1. eapply vec_impl; [|exact V1]. intros a [L _]; exact L. }
  destruct (Z.ltb_spec (Z.of_nat OMEGA) n) as [N|N]; [apply safe_ret; exact Logic.I|].
  assert (Ho : (length (flat_map positions h) <= OMEGA)%nat) by (unfold OMEGA in *; lia).
  assert (Vz : vec4 (fun x => Z.abs x < GAMMA1 - BETA) z).
  { apply vec4_at. split; [apply Pz|]. intros i Hi. split; [apply Pz; exact Hi|]. intros p Hp. apply Bz; assumption. }
  assert (Lct : length ct = 32%nat) by apply H256_length.
  assert (Vz' : vec4 z_range z).
  { eapply vec4_impl; [|exact Vz]. unfold z_range, GAMMA1, BETA. intros x Hx. lia. }
  destruct (unpack_pack_sig ct z h Lct Vz' Lh Vh Ho) as (sig & Es & _ & _).
  rewrite Es. cbn [cbind]. apply safe_ret.
  (* the witness *)
  destruct (vec_sub_ok w h1 Q INVB) as (g1 & Eg1 & Pg1 & Ag1).
  { eapply vec_impl; [|exact Sw]. exact std_pol. } { exact Ph1. } { unfold Q, INVB; lia. }
  destruct (vec_add_ok g1 h2 (Q + INVB) INVB Pg1 Ph2) as (g & Eg & Pg & Ag); [unfold Q, INVB; lia|].
  exists ct, c, z, h, w1, a0, g.
  repeat (split; [solve [assumption | reflexivity]|]).
  split; [|split; [exact Ah|split; [|split]]].
  - apply vec4_at. split; [apply Pa0|]. intros i Hi. split; [apply Pa0; exact Hi|]. intros p Hp.
    rewrite Aa0 by assumption. specialize (Bu i Hi p Hp). specialize (Bh i Hi p Hp). unfold GAMMA2, BETA in *. lia.
  - eapply vec_impl; [|exact Pg]. intros a [L _]; exact L.
  - intros i Hi p Hp. rewrite Ag, Ag1, Aa0 by assumption.
    pose proof (decomposed_eqq _ _ _ (D i Hi p Hp)) as [k1 E1].
    destruct (Ru i Hi p Hp) as [k2 E2]. destruct (Rh3 i Hi p Hp) as [k3 E3].
    rewrite Au0 in E2 by assumption. rewrite E2, E3.
    revert E1. generalize (at_ (vat w1 i) p) (at_ (vat w0 i) p) (at_ (vat w i) p) (at_ (vat h1 i) p) (at_ (vat h2 i) p).
    intros v1 v0 v a b E1. exists (- k1 - k2 - k3). lia.
  - intros i Hi p Hp.
    assert (G1 : eqq (ev p (vat g i)) (ev p (vat g1 i) + ev p (vat h2 i))).
    { apply ev_add. intros j Hj. rewrite Ag by assumption. apply eqq_refl. }
    assert (G2 : eqq (ev p (vat g1 i)) (ev p (vat w i) - ev p (vat h1 i))).
    { apply ev_sub. intros j Hj. rewrite Ag1 by assumption. apply eqq_refl. }
    assert (G3 : eqq (ev p (vat w i)) (mrow mat y i p)).
    { eapply eqq_trans; [|apply EV; assumption]. apply ev_eqq. intros j Hj. apply Ew; assumption. }
    assert (G4 : eqq (mrow mat z i p) (ev p c * mrow mat s1 i p + mrow mat y i p)).
    { apply mrow_lin. intros j Hj. eapply eqq_trans.
      - apply (ev_add (vat z j) (vat z1 j) (vat y j)). intros q Hq. rewrite <- Az2 by assumption. apply Rz; assumption.
      - apply eqq_add; [apply EV1; assumption|apply eqq_refl]. }
    pose proof (EV2 i Hi p Hp) as G5. pose proof (EV3 i Hi p Hp) as G6.
    revert G1 G2 G3 G4 G5 G6. generalize (ev p (vat g i)) (ev p (vat g1 i)) (ev p (vat w i)) (ev p (vat h1 i)) (ev p (vat h2 i))
      (mrow mat y i p) (mrow mat z i p) (ev p c) (mrow mat s1 i p) (ev p (vat s2 i)) (ev p (vat t0 i)).
    intros eg eg1 ew e1 e2 my mz ec ms es et [k1 ->] [k2 ->] [k3 ->] [k4 ->] [k5 ->] [k6 ->].
    exists (k1 + k2 + k3 - k4 - k5 + k6). ring.
Qed.

Lemma sign_loop_ok : forall att fuel X mat s1 s2 t0 s1h s2h t0h mu rhoprime nonce, matrix mat ->
  transformed s1 s1h -> transformed s2 s2h -> transformed t0 t0h ->
  safe (sign_loop att fuel X mat s1h s2h t0h mu rhoprime nonce) (accepted fuel X mat s1 s2 t0 mu).
Proof.
  induction att as [|att IH]; intros; cbn [sign_loop]; [left; reflexivity|].
  eapply safe_bind; [eapply sign_attempt_ok; eassumption|]. intros [sig|] A; [apply safe_ret; exact A|].
  apply IH; assumption.
Qed.

(** Signing with any 2560-byte secret key. *)
Lemma sign_signature_ok : forall att fuel X m sk, length sk = 2560%nat ->
  safe (sign_signature att fuel X m sk) (fun sig =>
    exists rho tr key t0 s1 s2 mat, unpack_sk sk = (rho, tr, key, t0, s1, s2) /\
      polyvec_matrix_expand fuel X rho = CRet mat /\ matrix mat /\
      accepted fuel X mat s1 s2 t0 (H256 X 64 (tr ++ m)) sig).
Proof.
  intros att fuel X m sk L. unfold sign_signature.
  destruct (unpack_sk sk) as [[[[[rho tr] key] t0] s1] s2] eqn:U.
  assert (V : vec4 t0_range t0 /\ vec4 eta_range s1 /\ vec4 eta_range s2).
  { unfold unpack_sk in U. apply pair_equal_spec in U. destruct U as [U <-]. apply pair_equal_spec in U. destruct U as [U <-].
    apply pair_equal_spec in U. destruct U as [_ <-]. split; [|split].
    - apply (vec_unpack_vec4 t0_range polyt0_unpack 416 sk 896); auto using polyt0_unpack_range, polyt0_unpack_length. lia.
    - apply (vec_unpack_vec4 eta_range polyeta_unpack 96 sk 128); auto using polyeta_unpack_range, polyeta_unpack_length. lia.
    - apply (vec_unpack_vec4 eta_range polyeta_unpack 96 sk 512); auto using polyeta_unpack_range, polyeta_unpack_length. lia. }
  destruct V as (V0 & V1 & V2).
  eapply safe_bind_eq; [apply matrix_expand_ok|]. intros mat Em M.
  destruct (vec_ntt_ok s1) as (s1h & -> & T1).
  { eapply vec4_pol; [|exact V1]. unfold eta_range, Q. intros; lia. }
  destruct (vec_ntt_ok s2) as (s2h & -> & T2).
  { eapply vec4_pol; [|exact V2]. unfold eta_range, Q. intros; lia. }
  destruct (vec_ntt_ok t0) as (t0h & -> & T0).
  { eapply vec4_pol; [|exact V0]. unfold t0_range, Q. intros; lia. }
  cbn [cbind]. eapply safe_impl; [eapply (sign_loop_ok _ _ _ _ s1 s2 t0); eassumption|].
  intros sig A. exists rho, tr, key, t0, s1, s2, mat. auto.
Qed.

(** ** Verification *)
(** The commitment the verifier recomputes is A z - c t1 2^13, in standard representatives. *)
Definition recomputed (mat : list polyvec) (z t1 : polyvec) (c : poly) (w : polyvec) : Prop :=
  vec std w /\ (forall i, (i < 4)%nat -> forall p, (p < 256)%nat ->
    eqq (ev p (vat w i)) (mrow mat z i p - ev p c * (ev p (vat t1 i) * 8192))).

Lemma recomputed_unique : forall mat z t1 c w w', recomputed mat z t1 c w -> recomputed mat z t1 c w' -> w = w'.
Proof.
  intros mat z t1 c w w' [[L S] E] [[L' S'] E'].
  apply (nth_ext _ _ [] []); [congruence|]. intros i Hi. rewrite L in Hi. fold (vat w i) (vat w' i).
  destruct (S i Hi) as [Lw Sw]. destruct (S' i Hi) as [Lw' Sw'].
  apply (nth_ext _ _ 0 0); [congruence|]. intros p Hp. rewrite Lw in Hp.
  assert (G : eqq (at_ (vat w i) p) (at_ (vat w' i) p)).
  { apply ev_inj; [|exact Hp]. intros q Hq. eapply eqq_trans; [apply E; assumption|]. apply eqq_sym. apply E'; assumption. }
  apply eqq_mod in G. specialize (Sw p Hp). specialize (Sw' p Hp).
  rewrite !Z.mod_small in G by assumption. exact G.
Qed.

Lemma verify_run : forall fuel X (sig m pk rho : bytes) t1 c z h cp mat, length sig = 2420%nat ->
  unpack_pk pk = (rho, t1) -> vec4 t1_range t1 -> unpack_sig sig = Some (c, z, h) ->
  vec4 (fun x => Z.abs x < GAMMA1 - BETA) z -> poly_challenge fuel X c = CRet cp ->
  polyvec_matrix_expand fuel X rho = CRet mat ->
  exists w, recomputed mat z t1 cp w /\
    verify_signature fuel X sig m pk =
      (do w1 <- polyveck_use_hint w h ;;
       CRet (beq c (H256 X 32 (H256 X 64 (H256 X 64 (firstn 1312 pk) ++ m) ++ polyveck_pack_w1 w1)))).
Proof.
  intros fuel X sig m pk rho t1 c z h cp mat Ls Up V1 Us Vz Ec Em. unfold verify_signature.
  rewrite Ls, Nat.eqb_refl. cbn [negb]. rewrite Up, Us.
  assert (Pz : vec (pol 131072) z).
  { eapply vec4_pol; [|exact Vz]. unfold GAMMA1, BETA. intros; lia. }
  destruct (vec_chknorm_ok z (GAMMA1 - BETA)) as (b & -> & Nz).
  { eapply vec_pol_le; [|exact Pz]. lia. } { unfold GAMMA1, BETA; lia. }
  assert (b = false) as ->.
  { apply Nz. apply vec4_at in Vz. intros i Hi p Hp. apply Vz; assumption. }
  clear Nz. cbn [cbind]. rewrite Ec, Em. cbn [cbind].
  pose proof (safe_inv _ _ _ (challenge_pol fuel X c) Ec) as Pc.
  pose proof (safe_inv _ _ _ (matrix_expand_ok fuel X rho) Em) as M.
  destruct (vec_ntt_ok z) as (zh & -> & Pzh & Tz).
  { eapply vec_pol_le; [|exact Pz]. unfold Q; lia. }
  cbn [cbind]. destruct (matrix_product_ok mat z zh M Pzh Tz) as (w & -> & Pw & Ew). cbn [cbind].
  destruct (poly_ntt_ok cp) as (ch & -> & Pch & Tc).
  { eapply pol_le; [|exact Pc]. unfold Q; lia. }
  cbn [cbind]. destruct (vec_shiftl_ok t1) as (ts & -> & Pts & As); [apply vec4_at in V1; exact V1|]. cbn [cbind].
  destruct (vec_ntt_ok ts Pts) as (th & -> & Pth & Tt). cbn [cbind].
  destruct (vec_pointwise_ok ch th Pch Pth) as (ct & -> & Pct & Et). cbn [cbind].
  destruct (vec_sub_ok w ct (4 * Q) Q Pw Pct) as (u & -> & Pu & Au); [unfold Q; lia|]. cbn [cbind].
  destruct (vec_reduce_ok u) as (u' & -> & Pu' & Ru).
  { eapply vec_pol_le; [|exact Pu]. unfold Q; lia. }
  cbn [cbind]. destruct (vec_invntt_ok u') as (r & -> & Pr & Er).
  { eapply vec_pol_le; [|exact Pu']. unfold REDB, Q; lia. }
  cbn [cbind]. destruct (vec_caddq_ok r) as (w' & -> & Sw & Rw).
  { eapply vec_pol_le; [|exact Pr]. unfold INVB, Q; lia. }
  cbn [cbind]. exists w'. split; [|reflexivity]. split; [exact Sw|]. intros i Hi p Hp.
  eapply eqq_trans with (y := ev p (vat r i)); [apply ev_eqq; intros j Hj; apply Rw; assumption|].
  eapply eqq_trans; [apply Er; assumption|].
  assert (G0 : eqq (ev p (vat ts i)) (ev p (vat t1 i) * 8192)).
  { rewrite Z.mul_comm. apply ev_scal. intros j Hj. rewrite As by assumption. rewrite Z.mul_comm. apply eqq_refl. }
  pose proof (Ru i Hi p Hp) as G1. rewrite Au in G1 by assumption.
  pose proof (Ew i Hi p Hp) as G2. pose proof (Et i Hi p Hp) as G3. pose proof (Tc p Hp) as G4. pose proof (Tt i Hi p Hp) as G5.
  assert (G6 : eqq (at_ (vat ct i) p * 4294967296) (ev p cp * (ev p (vat t1 i) * 8192))).
  { eapply eqq_trans; [exact G3|]. apply eqq_mul; [exact G4|]. eapply eqq_trans; [exact G5|exact G0]. }
  eapply eqq_trans; [apply eqq_mul; [exact G1|apply eqq_refl]|].
  rewrite Z.mul_sub_distr_r. apply eqq_sub; assumption.
Qed.

Lemma unpack_pk_vec : forall pk, length pk = 1312%nat -> vec4 t1_range (snd (unpack_pk pk)).
Proof.
  intros pk L. unfold unpack_pk. cbn [snd].
  apply (vec_unpack_vec4 t1_range polyt1_unpack 320 pk 32); auto using polyt1_unpack_range, polyt1_unpack_length. lia.
Qed.

(** What the verifier accepts, as a formula. *)
Definition valid (fuel : nat) (X : xof) (sig m pk : bytes) : Prop :=
  length sig = 2420%nat /\
  exists c z h cp mat w w1, unpack_sig sig = Some (c, z, h) /\ vec4 (fun x => Z.abs x < GAMMA1 - BETA) z /\
    poly_challenge fuel X c = CRet cp /\ polyvec_matrix_expand fuel X (fst (unpack_pk pk)) = CRet mat /\
    recomputed mat z (snd (unpack_pk pk)) cp w /\ polyveck_use_hint w h = CRet w1 /\
    c = H256 X 32 (H256 X 64 (H256 X 64 pk ++ m) ++ polyveck_pack_w1 w1).

Lemma hint_rows_256 : forall h, length h = 4%nat -> hint_vec h -> vec (fun a => length a = 256%nat) h.
Proof.
  intros h L V. split; [exact L|]. intros i Hi. unfold hint_vec in V. rewrite Forall_forall in V.
  apply (V (vat h i)). apply nth_In. lia.
Qed.

Lemma verify_ok : forall fuel X sig m pk, length pk = 1312%nat -> is_bytes sig ->
  safe (verify_signature fuel X sig m pk) (fun b => b = true <-> valid fuel X sig m pk).
Proof.
  intros fuel X sig m pk Lp Bs.
  destruct (Nat.eqb_spec (length sig) 2420) as [Ls|Ls].
  2:{ unfold verify_signature. apply Nat.eqb_neq in Ls. rewrite Ls. cbn [negb]. apply safe_ret. apply Nat.eqb_neq in Ls.
      split; [discriminate|]. intros [L _]. contradiction. }
  destruct (unpack_sig sig) as [[[c z] h]|] eqn:Us.
  2:{ unfold verify_signature. rewrite Ls, Nat.eqb_refl. cbn [negb]. destruct (unpack_pk pk). rewrite Us. apply safe_ret.
      split; [discriminate|]. intros (_ & c & z & h & cp & mat & w & w1 & E & _). rewrite E in Us. discriminate Us. }
  destruct (pack_unpack_sig sig c z h Ls Bs Us) as (Lc & Vz & Lh & Vh & Ho & _).
  assert (Pz : vec (pol 131072) z).
  { eapply vec4_pol; [|exact Vz]. unfold z_range, GAMMA1. intros; lia. }
  destruct (vec_chknorm_ok z (GAMMA1 - BETA)) as (b & Eb & Nz).
  { eapply vec_pol_le; [|exact Pz]. lia. } { unfold GAMMA1, BETA; lia. }
  assert (Hz : b = false <-> vec4 (fun x => Z.abs x < GAMMA1 - BETA) z).
  { rewrite Nz. split; intro G.
    - apply vec4_at. split; [apply Pz|]. intros i Hi. split; [apply Pz; exact Hi|]. apply G. exact Hi.
    - apply vec4_at in G. intros i Hi. apply G. exact Hi. }
  destruct b.
  { unfold verify_signature. rewrite Ls, Nat.eqb_refl. cbn [negb]. destruct (unpack_pk pk). rewrite Us, Eb. cbn [cbind]. apply safe_ret.
    split; [discriminate|]. intros (_ & c' & z' & h' & cp & mat & w & w1 & E & N & _). rewrite E in Us.
    apply Some_triple_inj in Us. destruct Us as (_ & -> & _). apply Hz in N. discriminate N. }
  pose proof (proj1 Hz eq_refl) as Vz'. clear Hz Nz.
  pose proof (unpack_pk_vec pk Lp) as V1. destruct (unpack_pk pk) as [rho t1] eqn:Up. cbn [snd] in V1.
  assert (D : (poly_challenge fuel X c = CFuel \/ exists cp, poly_challenge fuel X c = CRet cp) /\
              (polyvec_matrix_expand fuel X rho = CFuel \/ exists mat, polyvec_matrix_expand fuel X rho = CRet mat)).
  { split; [destruct (challenge_pol fuel X c) as [?|(cp & ? & _)]|destruct (matrix_expand_ok fuel X rho) as [?|(mt & ? & _)]]; eauto. }
  destruct D as [[Ec|(cp & Ec)] [Em|(mat & Em)]];
    try (left; unfold verify_signature; rewrite Ls, Nat.eqb_refl; cbn [negb]; rewrite Up, Us, Eb; cbn [cbind]; rewrite Ec; cbn [cbind];
         try rewrite Em; reflexivity).
  destruct (verify_run fuel X sig m pk rho t1 c z h cp mat Ls Up V1 Us Vz' Ec Em) as (w & Rw & ->).
  destruct (vec_use_hint_ok w h (proj1 Rw) (hint_rows_256 h Lh Vh)) as (w1 & Ew & Vw). rewrite Ew. cbn [cbind].
  apply safe_ret. rewrite (firstn_all2 pk) by lia. rewrite beq_spec. split.
  - intro G. split; [exact Ls|]. exists c, z, h, cp, mat, w, w1. rewrite Up. cbn [fst snd].
    repeat (split; [assumption|]). exact G.
  - intros (_ & c' & z' & h' & cp' & mat' & w' & w1' & E & _ & Ec' & Em' & Rw' & Ew' & G).
    rewrite Up in Em', Rw'. cbn [fst snd] in Em', Rw'. rewrite E in Us. apply Some_triple_inj in Us. destruct Us as (-> & -> & ->).
    rewrite Ec in Ec'. assert (cp' = cp) as -> by congruence. assert (mat' = mat) as -> by congruence.
    rewrite (recomputed_unique _ _ _ _ _ _ Rw' Rw) in Ew'. assert (w1' = w1) as -> by congruence. exact G.
Qed.
