(** * A64Sample: the two-way samplers of the AArch64 build of Dilithium2
    (pqclean/crypto_sign/dilithium2/aarch64/poly.c, polyvec.c). *)
From Coq Require Import ZArith List Lia Bool.
From Verif Require Import Base Bits SaberPoly DilArith DilNtt DilNttProof DilPoly DilPack DilOps DilSample DilSign AvxSample.
Import ListNotations.
Open Scope Z_scope.

(** ** The code *)
(** poly.c 438-442: the refill loop.  One block goes to the front of each buffer, and the whole
    buffer, old bytes included, is scanned again.  [a0], [a1] are the coefficients written so far,
    [pos] the number of bytes squeezed from each stream. *)
Fixpoint uniformx2_loop (fuel : nat) (s0 s1 : rng) (a0 a1 : list Z) (buf0 buf1 : bytes) (pos : nat) : crun (poly * poly) :=
  if (length a0 <? 256)%nat || (length a1 <? 256)%nat then
    match fuel with
    | O => CFuel
    | S f =>
        let buf0' := squeeze s0 pos SHAKE128_RATE ++ skipn SHAKE128_RATE buf0 in
        let buf1' := squeeze s1 pos SHAKE128_RATE ++ skipn SHAKE128_RATE buf1 in
        uniformx2_loop f s0 s1 (a0 ++ rej_uniform (256 - length a0) buf0') (a1 ++ rej_uniform (256 - length a1) buf1')
          buf0' buf1' (pos + SHAKE128_RATE)
    end
  else CRet (a0, a1).
(** poly.c 423-444: [poly_uniformx2]; the last two bytes of the buffers are never read.  The two
    streams are those of SHAKE128 on seed and nonce (fips202x2.c is not modelled). *)
Definition poly_uniformx2 (fuel : nat) (X : xof) (seed : bytes) (n0 n1 : Z) : crun (poly * poly) :=
  let s0 := stream128 X seed (u16 n0) in
  let s1 := stream128 X seed (u16 n1) in
  let buf0 := squeeze s0 0 840 in
  let buf1 := squeeze s1 0 840 in
  uniformx2_loop fuel s0 s1 (rej_uniform 256 buf0) (rej_uniform 256 buf1) buf0 buf1 840.
(** polyvec.c 50-58: [polyvec_matrix_expand]: column by column, two rows at a time. *)
Definition expand_column (fuel : nat) (X : xof) (rho : bytes) (j : nat) : crun (list poly) :=
  let nonce i := Z.shiftl (Z.of_nat i) 8 + Z.of_nat j in
  do (a0, a1) <- poly_uniformx2 fuel X rho (nonce 0%nat) (nonce 1%nat) ;;
  do (a2, a3) <- poly_uniformx2 fuel X rho (nonce 2%nat) (nonce 3%nat) ;;
  CRet [a0; a1; a2; a3].
Definition matrix_expand64 (fuel : nat) (X : xof) (rho : bytes) : crun (list polyvec) :=
  do cols <- mapM (expand_column fuel X rho) (seq 0 4) ;;
  CRet (map (fun i => map (fun col => nth i col []) cols) (seq 0 4)).
(** poly.c 568-583: [poly_uniform_gamma1x2]. *)
Definition uniform_gamma1x2 (X : xof) (seed : bytes) (n0 n1 : Z) : poly * poly :=
  let n := ((576 + SHAKE256_RATE - 1) / SHAKE256_RATE * SHAKE256_RATE)%nat in
  let buf0 := squeeze (stream256 X seed (u16 n0)) 0 n in
  let buf1 := squeeze (stream256 X seed (u16 n1)) 0 n in
  (polyz_unpack (firstn 576 buf0), polyz_unpack (firstn 576 buf1)).
(** polyvec.c 84-93: [polyvecl_uniform_gamma1] with L = 4. *)
Definition uniform_gamma1_64 (X : xof) (seed : bytes) (nonce : Z) : polyvec :=
  let '(y0, y1) := uniform_gamma1x2 X seed (4 * nonce + 0) (4 * nonce + 1) in
  let '(y2, y3) := uniform_gamma1x2 X seed (4 * nonce + 2) (4 * nonce + 3) in
  [y0; y1; y2; y3].

(** ** Against the portable samplers *)
Lemma u16_idem : forall x, u16 (u16 x) = u16 x. Proof. intro x. unfold u16. apply Z.mod_mod. lia. Qed.
Theorem uniform_gamma1_64_ok : forall X seed nonce, uniform_gamma1_64 X seed nonce = polyvecl_uniform_gamma1 X seed nonce.
Proof.
  intros X seed nonce. unfold uniform_gamma1_64, uniform_gamma1x2, polyvecl_uniform_gamma1, poly_uniform_gamma1. cbv zeta. reflexivity.
Qed.

Lemma rej_len : forall len len' b, length (rej_uniform len b) = len -> (len' <= len)%nat -> rej_uniform len' b = firstn len' (rej_uniform len b).
Proof.
  intros len len' b. revert len len'. induction b as [b IH] using (induction_ltof1 _ (@length Z)). unfold ltof in IH. intros len len' H L.
  destruct len' as [|len']; [rewrite rej_uniform_O; reflexivity|]. destruct len as [|len]; [lia|].
  destruct b as [|b0 [|b1 [|b2 b]]]; try reflexivity. cbn [rej_uniform] in *.
  destruct (_ <? Q).
  - cbn [firstn length] in *. f_equal. apply IH; [cbn; lia|lia|lia].
  - apply (IH b ltac:(cbn; lia) (S len) (S len')); [exact H|lia].
Qed.
Lemma rej_app : forall a b len, (length a mod 3 = 0)%nat ->
  rej_uniform len (a ++ b) = rej_uniform len a ++ rej_uniform (len - length (rej_uniform len a)) b.
Proof.
  intro a. induction a as [a IH] using (induction_ltof1 _ (@length Z)). unfold ltof in IH. intros b len L.
  destruct len as [|len]; [rewrite !rej_uniform_O; cbn; reflexivity|].
  destruct a as [|a0 [|a1 [|a2 a]]]; [cbn [app rej_uniform length]; rewrite Nat.sub_0_r; reflexivity|discriminate L|discriminate L|].
  assert (L' : (length a mod 3 = 0)%nat).
  { cbn [length] in L. replace (S (S (S (length a)))) with (length a + 1 * 3)%nat in L by lia. rewrite Nat.mod_add in L by lia. exact L. }
  cbn [app rej_uniform]. destruct (_ <? Q).
  - cbn [app length]. f_equal. rewrite IH by (cbn; lia || exact L'). reflexivity.
  - apply IH; [cbn; lia|exact L'].
Qed.
Local Opaque rej_uniform.
Lemma squeeze_app : forall s p n m, squeeze s p (n + m) = squeeze s p n ++ squeeze s (p + n) m.
Proof. intros. unfold squeeze. rewrite seq_app, map_app. reflexivity. Qed.
Local Opaque squeeze.
(** The first [n] bytes of a stream hold 256 acceptable candidates. *)
Definition enough (n : nat) (s : rng) : Prop := length (rej_uniform 256 (squeeze s 0 n)) = 256%nat.
(** What six blocks give. *)
Lemma six_blocks : forall s, rej_uniform 256 (squeeze s 0 1008) =
  rej_uniform 256 (squeeze s 0 840) ++ rej_uniform (256 - length (rej_uniform 256 (squeeze s 0 840))) (squeeze s 840 168).
Proof. intro s. change 1008%nat with (840 + 168)%nat. rewrite squeeze_app. apply rej_app. rewrite squeeze_length. reflexivity. Qed.
Lemma poly_uniform_six : forall f X seed n, enough 1008 (stream128 X seed n) ->
  poly_uniform (S f) X seed n = CRet (rej_uniform 256 (squeeze (stream128 X seed n) 0 1008)).
Proof.
  intros f X seed n E. rewrite poly_uniform_run. unfold enough in E.
  set (s := stream128 X seed n) in *. clearbody s.
  rewrite uniform_step by (apply rej_uniform_le || reflexivity).
  rewrite (uniform_loop_buf f s _ (squeeze s 840 SHAKE128_RATE) []) by (apply squeeze_mod3 || reflexivity).
  change SHAKE128_RATE with 168%nat. rewrite <- six_blocks. apply uniform_loop_full. exact E.
Qed.
(** One scan of the refilled buffer. *)
Lemma rescan : forall s, enough 1008 s ->
  rej_uniform 256 (squeeze s 0 840) ++
  rej_uniform (256 - length (rej_uniform 256 (squeeze s 0 840))) (squeeze s 840 SHAKE128_RATE ++ skipn SHAKE128_RATE (squeeze s 0 840)) =
  rej_uniform 256 (squeeze s 0 1008).
Proof.
  intros s E. unfold enough in E. rewrite six_blocks in E. rewrite six_blocks. apply (f_equal (app (rej_uniform 256 (squeeze s 0 840)))).
  change SHAKE128_RATE with 168%nat.
  rewrite rej_app by (rewrite squeeze_length; reflexivity). rewrite app_length in E.
  set (l := rej_uniform (256 - length (rej_uniform 256 (squeeze s 0 840))) (squeeze s 840 168)) in *.
  replace (256 - length (rej_uniform 256 (squeeze s 0 840)) - length l)%nat with 0%nat by lia. rewrite rej_uniform_O, app_nil_r. reflexivity.
Qed.
Lemma six_of_five : forall s, enough 840 s -> enough 1008 s /\ rej_uniform 256 (squeeze s 0 1008) = rej_uniform 256 (squeeze s 0 840).
Proof.
  intros s E. unfold enough in *. rewrite six_blocks, E, Nat.sub_diag, rej_uniform_O, app_nil_r. split; [exact E|reflexivity].
Qed.
(** The two-way sampler returns what the portable one returns whenever six blocks hold enough
    candidates for both polynomials. *)
Theorem uniformx2_ok : forall f X seed n0 n1, 0 <= n0 < 65536 -> 0 <= n1 < 65536 ->
  enough 1008 (stream128 X seed n0) -> enough 1008 (stream128 X seed n1) ->
  exists a0 a1, poly_uniform (S f) X seed n0 = CRet a0 /\ poly_uniform (S f) X seed n1 = CRet a1 /\
    poly_uniformx2 (S f) X seed n0 n1 = CRet (a0, a1).
Proof.
  intros f X seed n0 n1 H0 H1 E0 E1. rewrite (poly_uniform_six f X seed n0 E0), (poly_uniform_six f X seed n1 E1).
  eexists. eexists. split; [reflexivity|]. split; [reflexivity|]. unfold poly_uniformx2. cbv zeta.
  unfold u16. rewrite (Z.mod_small n0 65536), (Z.mod_small n1 65536) by assumption.
  set (s0 := stream128 X seed n0) in *. set (s1 := stream128 X seed n1) in *. clearbody s0 s1.
  cbn [uniformx2_loop].
  pose proof (rej_uniform_le (squeeze s0 0 840) 256) as L0. pose proof (rej_uniform_le (squeeze s1 0 840) 256) as L1.
  destruct ((length (rej_uniform 256 (squeeze s0 0 840)) <? 256)%nat || (length (rej_uniform 256 (squeeze s1 0 840)) <? 256)%nat) eqn:C.
  - rewrite (rescan s0 E0), (rescan s1 E1). unfold enough in *.
    destruct f as [|f]; cbn [uniformx2_loop]; rewrite E0, E1; reflexivity.
  - apply orb_false_iff in C. rewrite !Nat.ltb_ge in C. destruct C as [C0 C1].
    rewrite (proj2 (six_of_five s0 ltac:(unfold enough; lia))), (proj2 (six_of_five s1 ltac:(unfold enough; lia))). reflexivity.
Qed.

(** Every entry of the matrix of [rho] is complete after six blocks of its stream. *)
Definition six_blocks_suffice (X : xof) (rho : bytes) : Prop :=
  forall i j, (i < 4)%nat -> (j < 4)%nat -> enough 1008 (stream128 X rho (Z.shiftl (Z.of_nat i) 8 + Z.of_nat j)).
Lemma nonce_u16 : forall i j, (i < 4)%nat -> (j < 4)%nat -> 0 <= Z.shiftl (Z.of_nat i) 8 + Z.of_nat j < 65536.
Proof. intros i j Hi Hj. rewrite Z.shiftl_mul_pow2 by lia. change (2 ^ 8) with 256. lia. Qed.
Definition entry (X : xof) (rho : bytes) (i j : nat) : poly := rej_uniform 256 (squeeze (stream128 X rho (Z.shiftl (Z.of_nat i) 8 + Z.of_nat j)) 0 1008).
Lemma column_ok : forall f X rho j, six_blocks_suffice X rho -> (j < 4)%nat ->
  expand_column (S f) X rho j = CRet (map (fun i => entry X rho i j) (seq 0 4)).
Proof.
  intros f X rho j H Hj. unfold expand_column. cbv zeta. unfold entry.
  assert (P : forall i i', (i < 4)%nat -> (i' < 4)%nat -> poly_uniformx2 (S f) X rho (Z.shiftl (Z.of_nat i) 8 + Z.of_nat j) (Z.shiftl (Z.of_nat i') 8 + Z.of_nat j) = CRet (entry X rho i j, entry X rho i' j)).
  { intros i i' Hi Hi'.
    destruct (uniformx2_ok f X rho _ _ (nonce_u16 i j Hi Hj) (nonce_u16 i' j Hi' Hj) (H i j Hi Hj) (H i' j Hi' Hj)) as (a0 & a1 & E0 & E1 & E).
    rewrite (poly_uniform_six f X rho _ (H i j Hi Hj)) in E0. rewrite (poly_uniform_six f X rho _ (H i' j Hi' Hj)) in E1.
    assert (A0 : entry X rho i j = a0) by (clear - E0; injection E0 as E0; exact E0).
    assert (A1 : entry X rho i' j = a1) by (clear - E1; injection E1 as E1; exact E1). rewrite E, A0, A1. reflexivity. }
  rewrite (P 0%nat 1%nat) by lia. cbn [cbind]. rewrite (P 2%nat 3%nat) by lia. reflexivity.
Qed.
Lemma mapM_ret : forall {A B} (f : A -> crun B) (g : A -> B) l, (forall x, In x l -> f x = CRet (g x)) -> mapM f l = CRet (map g l).
Proof.
  intros A B f g l H. induction l as [|x l IH]; [reflexivity|]. cbn [mapM map]. rewrite (H x (or_introl eq_refl)). cbn [cbind].
  rewrite IH by (intros y Hy; apply H; right; exact Hy). reflexivity.
Qed.
Theorem matrix_expand64_ok : forall f X rho, six_blocks_suffice X rho ->
  exists mat, matrix_expand64 (S f) X rho = CRet mat /\ polyvec_matrix_expand (S f) X rho = CRet mat.
Proof.
  intros f X rho H. exists (map (fun i => map (fun j => entry X rho i j) (seq 0 4)) (seq 0 4)). split.
  - unfold matrix_expand64. rewrite (mapM_ret _ (fun j => map (fun i => entry X rho i j) (seq 0 4))).
    2:{ intros j Hj. apply in_seq in Hj. apply column_ok; [exact H|lia]. }
    cbn [cbind]. generalize (entry X rho). intro e. reflexivity.
  - unfold polyvec_matrix_expand. apply mapM_ret. intros i Hi. apply in_seq in Hi. apply mapM_ret. intros j Hj. apply in_seq in Hj.
    apply poly_uniform_six. apply H; lia.
Qed.

(** ** When six blocks are not enough *)
(** Then the AArch64 sampler fills up with candidates it has already used: after what the six
    blocks give come, again, the candidates of blocks two to five. *)
Theorem uniformx2_repeats : forall f X seed n0 n1, 0 <= n0 < 65536 ->
  let s := stream128 X seed n0 in
  let got := rej_uniform 256 (squeeze s 0 1008) in
  let used := rej_uniform (256 - length got) (squeeze s 168 672) in
  (length got < 256)%nat -> (length got + length used = 256)%nat -> enough 1008 (stream128 X seed (u16 n1)) ->
  exists a1, poly_uniformx2 (S f) X seed n0 n1 = CRet (got ++ used, a1).
Proof.
  intros f X seed n0 n1 H0 s got used Hg Hu E1. unfold poly_uniformx2. cbv zeta.
  replace (u16 n0) with n0 by (unfold u16; rewrite Z.mod_small; [reflexivity|exact H0]). fold s.
  set (s1 := stream128 X seed (u16 n1)) in *. clearbody s1.
  assert (R : rej_uniform 256 (squeeze s 0 840) ++ rej_uniform (256 - length (rej_uniform 256 (squeeze s 0 840))) (squeeze s 840 SHAKE128_RATE ++ skipn SHAKE128_RATE (squeeze s 0 840)) = got ++ used).
  { change SHAKE128_RATE with 168%nat. rewrite rej_app by (rewrite squeeze_length; reflexivity).
    unfold used, got in *. rewrite six_blocks in *. rewrite app_assoc. rewrite app_length in *.
    replace (skipn 168 (squeeze s 0 840)) with (squeeze s 168 672).
    2:{ change 840%nat with (168 + 672)%nat. rewrite squeeze_app. rewrite skipn_app, skipn_all2 by (rewrite squeeze_length; lia).
        rewrite squeeze_length, Nat.sub_diag. reflexivity. }
    rewrite Nat.sub_add_distr. reflexivity. }
  assert (L : (length (rej_uniform 256 (squeeze s 0 840)) < 256)%nat).
  { unfold got in Hg. rewrite six_blocks, app_length in Hg. lia. }
  cbn [uniformx2_loop]. rewrite (proj2 (Nat.ltb_lt _ _) L). cbn [orb]. rewrite R, (rescan s1 E1). unfold enough in E1.
  assert (LR : length (got ++ used) = 256%nat) by (rewrite app_length; exact Hu).
  eexists. destruct f as [|f]; cbn [uniformx2_loop]; rewrite LR, E1; reflexivity.
Qed.
(** The portable sampler reads on instead. *)
Theorem uniform_reads_on : forall f X seed n, let s := stream128 X seed n in
  length (rej_uniform 256 (squeeze s 0 1176)) = 256%nat ->
  poly_uniform (S (S f)) X seed n = CRet (rej_uniform 256 (squeeze s 0 1176)).
Proof.
  intros f X seed n s E. rewrite poly_uniform_run. fold s. clearbody s.
  rewrite uniform_step by (apply rej_uniform_le || reflexivity).
  rewrite (uniform_loop_buf _ s _ (squeeze s 840 SHAKE128_RATE) []) by (apply squeeze_mod3 || reflexivity).
  change SHAKE128_RATE with 168%nat. rewrite <- six_blocks. change (840 + 168)%nat with 1008%nat.
  rewrite uniform_step by (apply rej_uniform_le || reflexivity).
  rewrite (uniform_loop_buf _ s _ (squeeze s 1008 SHAKE128_RATE) []) by (apply squeeze_mod3 || reflexivity).
  change SHAKE128_RATE with 168%nat.
  assert (G : rej_uniform 256 (squeeze s 0 1176) = rej_uniform 256 (squeeze s 0 1008) ++ rej_uniform (256 - length (rej_uniform 256 (squeeze s 0 1008))) (squeeze s 1008 168)).
  { change 1176%nat with (1008 + 168)%nat. rewrite squeeze_app. apply rej_app. rewrite squeeze_length. reflexivity. }
  rewrite <- G. apply uniform_loop_full. exact E.
Qed.
