(** * AvxPoly: the vector loops of poly.c and rounding.c of pqclean/crypto_sign/dilithium2/avx2
    that treat every 32-bit lane alike.

    A loop over 32 registers of 8 lanes whose body uses only lane-wise instructions does the same
    to all 256 coefficients: it is modelled by a map of the body over the coefficients, the body
    written with one definition per intrinsic.  The intrinsics wrap and have no undefined
    behaviour. *)
From Coq Require Import ZArith List Lia Bool.
From Verif Require Import Base Bits SaberPoly SaberRing DilArith DilNtt DilPoly DilOps.
Import ListNotations.
Open Scope Z_scope.

(** ** Intrinsics, on one 32-bit lane *)
(** [_mm256_add_epi32], [_mm256_sub_epi32], [_mm256_mullo_epi32]. *)
Definition add_epi32 (x y : Z) : Z := i32 (x + y).
Definition sub_epi32 (x y : Z) : Z := i32 (x - y).
Definition mullo_epi32 (x y : Z) : Z := i32 (x * y).
(** [_mm256_srai_epi32], [_mm256_srli_epi32], [_mm256_slli_epi32]. *)
Definition srai_epi32 (x n : Z) : Z := Z.shiftr x n.
Definition srli_epi32 (x n : Z) : Z := i32 (Z.shiftr (x mod 4294967296) n).
Definition slli_epi32 (x n : Z) : Z := i32 (Z.shiftl x n).
(** [_mm256_cmpgt_epi32], [_mm256_cmpeq_epi32]: all ones or zero. *)
Definition cmpgt_epi32 (x y : Z) : Z := if y <? x then -1 else 0.
Definition cmpeq_epi32 (x y : Z) : Z := if x =? y then -1 else 0.
(** [_mm256_blendv_ps]: the second operand where the top bit of the mask is set (poly.c 17-20). *)
Definition blendv_epi32 (a b m : Z) : Z := if m <? 0 then b else a.
(** [_mm256_abs_epi32], [_mm256_sign_epi32]. *)
Definition abs_epi32 (x : Z) : Z := i32 (Z.abs x).
Definition sign_epi32 (a b : Z) : Z := if b <? 0 then i32 (- a) else if b =? 0 then 0 else a.
(** [_mm256_and_si256], [_mm256_or_si256]. *)
Definition and_si256 (x y : Z) : Z := Z.land x y.
Definition or_si256 (x y : Z) : Z := Z.lor x y.
(** The two 16-bit halves of a lane, read unsigned or signed, and the lane made of two halves. *)
Definition lo16 (x : Z) : Z := x mod 65536.
Definition hi16 (x : Z) : Z := (x / 65536) mod 65536.
Definition s16 (x : Z) : Z := (x + 32768) mod 65536 - 32768.
Definition join16 (l h : Z) : Z := i32 (l mod 65536 + (h mod 65536) * 65536).
(** [_mm256_mulhi_epu16], [_mm256_mulhrs_epi16] on both halves. *)
Definition mulhi_epu16 (x y : Z) : Z :=
  join16 (Z.shiftr (lo16 x * lo16 y) 16) (Z.shiftr (hi16 x * hi16 y) 16).
Definition mulhrs1 (a b : Z) : Z := Z.shiftr (Z.shiftr (s16 a * s16 b) 14 + 1) 1.
Definition mulhrs_epi16 (x y : Z) : Z := join16 (mulhrs1 (lo16 x) (lo16 y)) (mulhrs1 (hi16 x) (hi16 y)).

(** ** The loops *)
(** poly.c 31-48: [poly_reduce]. *)
Definition reduce_lane (f : Z) : Z :=
  let g := add_epi32 f 4194304 in let g := srai_epi32 g 23 in let g := mullo_epi32 g Q in sub_epi32 f g.
Definition reduce_avx (a : poly) : poly := map reduce_lane a.
(** poly.c 58-73: [poly_caddq]. *)
Definition caddq_lane (f : Z) : Z := let g := blendv_epi32 0 Q f in add_epi32 f g.
Definition caddq_avx (a : poly) : poly := map caddq_lane a.
(** poly.c 84-97, 110-123: [poly_add], [poly_sub]. *)
Definition add_avx (a b : poly) : poly := map2 add_epi32 a b.
Definition sub_avx (a b : poly) : poly := map2 sub_epi32 a b.
(** poly.c 133-145: [poly_shiftl]. *)
Definition shiftl_avx (a : poly) : poly := map (fun f => slli_epi32 f DD) a.
(** poly.c 299-321: [poly_chknorm]; [true] is return value 1.  [_mm256_testz_si256(t, t)] is 1
    exactly when every lane of [t] is zero; [t] collects the lanes of all 32 registers. *)
Definition chknorm_lane (B f : Z) : Z := cmpgt_epi32 (abs_epi32 f) (i32 (B - 1)).
Definition testz (l : list Z) : bool := forallb (fun x => x =? 0) l.
Definition chknorm_avx (a : poly) (B : Z) : bool :=
  if (Q - 1) / 8 <? B then true else negb (testz (map (chknorm_lane B) a)).
(** rounding.c 57-85: [decompose_avx]; returns (a1, a0). *)
Definition decompose_lane (f : Z) : Z * Z :=
  let hq := srli_epi32 Q 1 in
  let f1 := add_epi32 f 127 in
  let f1 := srli_epi32 f1 7 in
  let f1 := mulhi_epu16 f1 11275 in
  let f1 := mulhrs_epi16 f1 128 in
  let t := sub_epi32 43 f1 in
  let f1 := blendv_epi32 f1 0 t in
  let f0 := mullo_epi32 f1 (2 * GAMMA2) in
  let f0 := sub_epi32 f f0 in
  let g := cmpgt_epi32 f0 hq in
  let g := and_si256 g Q in
  let f0 := sub_epi32 f0 g in
  (f1, f0).
Definition decompose_avx (a : poly) : poly * poly :=
  (map (fun f => fst (decompose_lane f)) a, map (fun f => snd (decompose_lane f)) a).
(** rounding.c 108-114 (loop body): the lanes of the mask in [make_hint_avx]. *)
Definition hint_lane (f0 f1 : Z) : Z :=
  let g0 := abs_epi32 f0 in
  let g0 := cmpgt_epi32 g0 GAMMA2 in
  let g1 := cmpeq_epi32 f0 (- GAMMA2) in
  let g1 := sign_epi32 g1 f1 in
  or_si256 g0 g1.
(** rounding.c 136-157: [use_hint_avx]. *)
Definition use_hint_lane (a h : Z) : Z :=
  let '(g, f) := decompose_lane a in
  let t := blendv_epi32 0 h f in
  let t := slli_epi32 t 1 in
  let h := sub_epi32 h t in
  let g := add_epi32 g h in
  let g := blendv_epi32 g 43 g in
  let f := cmpgt_epi32 g 43 in
  blendv_epi32 g 0 f.
Definition use_hint_avx (a h : poly) : poly := map2 use_hint_lane a h.

(** ** They compute what the reference computes *)
Lemma chk32_inv : forall x r, chk32 x = CRet r -> r = x /\ i32 x = x.
Proof.
  intros x r H. unfold chk32 in H. destruct (_ && _) eqn:E; [|discriminate H]. injection H as <-. split; [reflexivity|].
  apply andb_true_iff in E. destruct E as [E1 E2]. apply Z.leb_le in E1. apply Z.ltb_lt in E2. apply i32_id. unfold in32. lia.
Qed.
Ltac cinv H := match type of H with cbind (chk32 ?x) _ = CRet _ =>
    let E := fresh "E" in let r := fresh "r" in let I := fresh "I" in
    destruct (chk32 x) as [r| |] eqn:E; [|discriminate H|discriminate H]; cbn [cbind] in H;
    apply chk32_inv in E; destruct E as [-> I] end.
Lemma reduce_lane_ok : forall a r, reduce32 a = CRet r -> reduce_lane a = r.
Proof.
  intros a r H. unfold reduce32 in H. cinv H. cinv H. apply chk32_inv in H. destruct H as [-> I1].
  unfold reduce_lane, add_epi32, srai_epi32, mullo_epi32, sub_epi32. cbv zeta. rewrite I, I0. exact I1.
Qed.
Lemma caddq_lane_ok : forall a, in32 a -> caddq a = CRet (caddq_lane a).
Proof.
  intros a H. rewrite (caddq_ok a H). unfold caddq_lane, blendv_epi32, add_epi32. cbv zeta. f_equal.
  unfold in32, Q in *. destruct (Z.ltb_spec a 0); symmetry.
  - apply i32_id. unfold in32. lia.
  - rewrite Z.add_0_r. apply i32_id. unfold in32. lia.
Qed.
Lemma mapM_lane : forall (f : Z -> crun Z) (g : Z -> Z) a r, (forall x y, f x = CRet y -> g x = y) -> mapM f a = CRet r -> map g a = r.
Proof.
  intros f g a. induction a as [|x a IH]; intros r H E; cbn [mapM map] in *; [injection E as <-; reflexivity|].
  destruct (f x) as [y| |] eqn:Ef; cbn [cbind] in E; try discriminate E.
  destruct (mapM f a) as [l| |] eqn:Em; cbn [cbind] in E; try discriminate E. injection E as <-.
  rewrite (IH l H eq_refl). f_equal. apply H. exact Ef.
Qed.
Lemma zipM_lane : forall (f : Z -> Z -> crun Z) (g : Z -> Z -> Z) a b r, (forall x y z, f x y = CRet z -> g x y = z) ->
  zipM f a b = CRet r -> map2 g a b = r.
Proof.
  intros f g a. induction a as [|x a IH]; intros b r H E; [destruct b; cbn in E; injection E as <-; reflexivity|].
  destruct b as [|y b]; cbn [zipM map2] in *; [injection E as <-; reflexivity|].
  destruct (f x y) as [z| |] eqn:Ef; cbn [cbind] in E; try discriminate E.
  destruct (zipM f a b) as [l| |] eqn:Em; cbn [cbind] in E; try discriminate E. injection E as <-.
  rewrite (IH b l H Em). f_equal. apply H. exact Ef.
Qed.
Theorem reduce_avx_ok : forall a r, poly_reduce a = CRet r -> reduce_avx a = r.
Proof. intros a r. apply mapM_lane. apply reduce_lane_ok. Qed.
Theorem add_avx_ok : forall a b r, poly_add a b = CRet r -> add_avx a b = r.
Proof. intros a b r. apply zipM_lane. intros x y z H. apply chk32_inv in H. destruct H as [-> H]. exact H. Qed.
Theorem sub_avx_ok : forall a b r, poly_sub a b = CRet r -> sub_avx a b = r.
Proof. intros a b r. apply zipM_lane. intros x y z H. apply chk32_inv in H. destruct H as [-> H]. exact H. Qed.
Theorem shiftl_avx_ok : forall a r, poly_shiftl a = CRet r -> shiftl_avx a = r.
Proof.
  intros a r. apply mapM_lane. intros x y H. unfold shl32 in H. destruct (x <? 0); [discriminate H|].
  apply chk32_inv in H. destruct H as [-> H]. unfold slli_epi32, DD in *. rewrite Z.shiftl_mul_pow2 by lia. exact H.
Qed.
Lemma caddq_lane_inv : forall a r, caddq a = CRet r -> in32 a -> caddq_lane a = r.
Proof. intros a r H I. rewrite caddq_lane_ok in H by exact I. injection H as <-. reflexivity. Qed.
Theorem caddq_avx_ok : forall a r, Forall in32 a -> poly_caddq a = CRet r -> caddq_avx a = r.
Proof.
  intros a. unfold poly_caddq, caddq_avx. induction a as [|x a IH]; intros r F E; cbn [mapM map] in *; [injection E as <-; reflexivity|].
  inversion F; subst. destruct (caddq x) as [y| |] eqn:Ef; cbn [cbind] in E; try discriminate E.
  destruct (mapM caddq a) as [l| |] eqn:Em; cbn [cbind] in E; try discriminate E. injection E as <-.
  rewrite (IH l H2 eq_refl). f_equal. apply caddq_lane_inv; assumption.
Qed.

(** [decompose]: the 16-bit multiplications do not overflow. *)
Lemma join16_small : forall x, 0 <= x < 65536 -> join16 x 0 = x.
Proof.
  intros x H. unfold join16. rewrite (Z.mod_small x) by lia. change (0 mod 65536) with 0. rewrite Z.add_0_r. apply i32_id. unfold in32. lia.
Qed.
Lemma small_halves : forall x, 0 <= x < 65536 -> lo16 x = x /\ hi16 x = 0.
Proof. intros x H. unfold lo16, hi16. rewrite Z.mod_small, Z.div_small by lia. split; reflexivity. Qed.
Lemma s16_id : forall x, 0 <= x < 32768 -> s16 x = x.
Proof. intros x H. unfold s16. rewrite Z.mod_small; lia. Qed.
Lemma cret_pair : forall (a b c d : Z), CRet (a, b) = CRet (c, d) -> a = c /\ b = d.
Proof. intros a b c d H. injection H as -> ->. split; reflexivity. Qed.
Theorem decompose_lane_ok : forall a, 0 <= a < Q -> decompose a = CRet (decompose_lane a).
Proof.
  intros a H. destruct (decompose_ok a H) as (a1 & a0 & E & D). unfold Q in H. unfold decompose in E.
  cinv E. cinv E. cinv E. cinv E. cinv E. cinv E. cinv E. cinv E. cinv E. apply cret_pair in E. destruct E as [E1 E0].
  assert (G : decompose_lane a = (a1, a0)).
  { unfold decompose_lane. cbv zeta. change (srli_epi32 Q 1) with 4190208. unfold add_epi32. rewrite I.
    set (u := Z.shiftr (a + 127) 7) in *.
    assert (Hu : 0 <= u < 65473). { unfold u. rewrite Z.shiftr_div_pow2 by lia. change (2 ^ 7) with 128. split; [apply Z.div_pos; lia|apply Z.div_lt_upper_bound; lia]. }
    assert (Eu : srli_epi32 (a + 127) 7 = u). { unfold srli_epi32. rewrite Z.mod_small by lia. fold u. apply i32_id. unfold in32. lia. }
    rewrite Eu. set (x := Z.shiftr (u * 11275) 16).
    assert (Hx : 0 <= x < 11265). { unfold x. rewrite Z.shiftr_div_pow2 by lia. change (2 ^ 16) with 65536. split; [apply Z.div_pos; lia|apply Z.div_lt_upper_bound; lia]. }
    assert (Ex : mulhi_epu16 u 11275 = x).
    { unfold mulhi_epu16. destruct (small_halves u) as [-> ->]; [lia|]. change (lo16 11275) with 11275. change (hi16 11275) with 0.
      fold x. change (Z.shiftr (0 * 0) 16) with 0. apply join16_small. lia. }
    rewrite Ex. set (y := Z.shiftr (u * 11275 + 8388608) 24) in *.
    assert (Ey : mulhrs_epi16 x 128 = y).
    { unfold mulhrs_epi16, mulhrs1. destruct (small_halves x) as [-> ->]; [lia|]. change (lo16 128) with 128. change (hi16 128) with 0.
      rewrite s16_id by lia. change (s16 128) with 128. change (Z.shiftr (Z.shiftr (s16 0 * s16 0) 14 + 1) 1) with 0.
      assert (E2 : Z.shiftr (Z.shiftr (x * 128) 14 + 1) 1 = y).
      { unfold y, x. rewrite !Z.shiftr_div_pow2 by lia. change (2 ^ 14) with 16384. change (2 ^ 1) with 2. change (2 ^ 24) with 16777216. change (2 ^ 16) with 65536.
        Z.to_euclidean_division_equations. lia. }
      rewrite E2. apply join16_small. unfold y. rewrite Z.shiftr_div_pow2 by lia. change (2 ^ 24) with 16777216.
      split; [apply Z.div_pos; lia|apply Z.div_lt_upper_bound; lia]. }
    rewrite Ey. unfold sub_epi32.
    assert (Hy : 0 <= y < 45). { unfold y. rewrite Z.shiftr_div_pow2 by lia. change (2 ^ 24) with 16777216.
      split; [apply Z.div_pos; lia|apply Z.div_lt_upper_bound; lia]. }
    rewrite I2. set (v := Z.lxor y (Z.land (Z.shiftr (43 - y) 31) y)) in *.
    assert (Ev : blendv_epi32 y 0 (43 - y) = v).
    { unfold blendv_epi32, v. destruct (Z.ltb_spec (43 - y) 0).
      - rewrite shiftr31_neg, land_m1 by lia. symmetry. apply Z.lxor_nilpotent.
      - rewrite shiftr31_pos, Z.land_0_l by lia. symmetry. apply Z.lxor_0_r. }
    rewrite Ev. replace (v * 2 * GAMMA2) with (v * (2 * GAMMA2)) in * by ring. unfold mullo_epi32. rewrite I4.
    unfold sub_epi32. rewrite I5. set (c := a - v * (2 * GAMMA2)) in *. change ((Q - 1) / 2) with 4190208 in *.
    assert (Ec : and_si256 (cmpgt_epi32 c 4190208) Q = Z.land (Z.shiftr (4190208 - c) 31) Q).
    { unfold and_si256, cmpgt_epi32. f_equal.
      pose proof (i32_range (4190208 - c)) as R. rewrite I6 in R. unfold in32 in R.
      destruct (Z.ltb_spec 4190208 c); symmetry; [apply shiftr31_neg; lia|apply shiftr31_pos; lia]. }
    rewrite Ec, I7. clear - E1 E0. subst. reflexivity. }
  rewrite G. clear G I I0 I1 I2 I3 I4 I5 I6 I7. clear E1 E0.
  assert (E' : decompose a = CRet (a1, a0)).
  { destruct (decompose_ok a) as (b1 & b0 & Eb & Db); [unfold Q; lia|]. destruct (decomposed_unique a a1 a0 b1 b0) as [-> ->]; auto; unfold Q; lia. }
  exact E'.
Qed.

(** [use_hint]: the vector code moves the high part up when the low part is zero, the reference
    (and the specification of Dilithium) down; everywhere else they agree. *)
Theorem use_hint_lane_ok : forall a h a1 a0, 0 <= a < Q -> h = 0 \/ h = 1 -> decompose a = CRet (a1, a0) ->
  use_hint_lane a h = if h =? 0 then a1 else if 0 <=? a0 then (if a1 =? 43 then 0 else a1 + 1) else (if a1 =? 0 then 43 else a1 - 1).
Proof.
  intros a h a1 a0 H Hh E'. unfold use_hint_lane. pose proof (decompose_lane_ok a H) as E.
  destruct (decompose_ok a H) as (b1 & b0 & E'' & D). rewrite E' in E''. apply cret_pair in E''. destruct E'' as [<- <-]. rewrite E' in E.
  destruct (decompose_lane a) as [g f]. apply cret_pair in E. destruct E as [<- <-].
  assert (B : 0 <= a1 < 44) by (unfold decomposed in D; lia). cbv zeta.
  assert (N : forall x, -1 <= x <= 44 -> blendv_epi32 (blendv_epi32 x 43 x) 0 (cmpgt_epi32 (blendv_epi32 x 43 x) 43) =
     if x <? 0 then 43 else if 43 <? x then 0 else x).
  { intros x Hx. unfold blendv_epi32, cmpgt_epi32. destruct (Z.ltb_spec x 0); [reflexivity|]. destruct (Z.ltb_spec 43 x); reflexivity. }
  assert (T : forall d, -1 <= d <= 1 -> add_epi32 a1 d = a1 + d). { intros d Hd. apply i32_id. unfold in32. lia. }
  destruct Hh as [-> | ->]; cbn [Z.eqb].
  - assert (Z0 : blendv_epi32 0 0 a0 = 0) by (unfold blendv_epi32; destruct (_ <? _); reflexivity). rewrite Z0.
    change (sub_epi32 0 (slli_epi32 0 1)) with 0. rewrite T, N by lia. rewrite Z.add_0_r.
    destruct (Z.ltb_spec a1 0); [lia|]. destruct (Z.ltb_spec 43 a1); [lia|]. reflexivity.
  - change (blendv_epi32 0 1 a0) with (if a0 <? 0 then 1 else 0). destruct (Z.leb_spec 0 a0) as [G|G].
    + assert (Z0 : (a0 <? 0) = false) by (apply Z.ltb_ge; exact G). rewrite !Z0. change (sub_epi32 1 (slli_epi32 0 1)) with 1. rewrite T, N by lia.
      destruct (Z.ltb_spec (a1 + 1) 0); [lia|]. destruct (Z.ltb_spec 43 (a1 + 1)), (Z.eqb_spec a1 43); lia.
    + assert (Z0 : (a0 <? 0) = true) by (apply Z.ltb_lt; exact G). rewrite !Z0. change (sub_epi32 1 (slli_epi32 1 1)) with (-1). rewrite T, N by lia.
      destruct (Z.ltb_spec (a1 + -1) 0), (Z.eqb_spec a1 0); try lia. destruct (Z.ltb_spec 43 (a1 + -1)); lia.
Qed.

(** [poly_chknorm]: the same verdict as the comparison of absolute values. *)
Theorem chknorm_avx_ok : forall a B, B <= (Q - 1) / 8 -> -2147483647 <= B -> Forall (fun x => -2147483648 < x < 2147483648) a ->
  (chknorm_avx a B = false <-> Forall (fun x => Z.abs x < B) a).
Proof.
  intros a B HB LB F. unfold chknorm_avx. change ((Q - 1) / 8) with 1047552 in *. destruct (Z.ltb_spec 1047552 B); [lia|].
  rewrite negb_false_iff. unfold testz. induction F as [|x a Hx F IH]; cbn [map forallb]; [split; auto|].
  rewrite andb_true_iff, IH, Z.eqb_eq. unfold chknorm_lane at 1, cmpgt_epi32, abs_epi32. rewrite !i32_id by (unfold in32; lia).
  rewrite Forall_cons_iff. destruct (Z.ltb_spec (B - 1) (Z.abs x)); intuition lia.
Qed.

(** The lanes of [make_hint_avx] whose top bit is set. *)
Theorem hint_lane_ok : forall f0 f1, -2147483648 < f0 < 2147483648 -> 0 <= f1 ->
  hint_lane f0 f1 <? 0 = negb (make_hint f0 f1 =? 0).
Proof.
  intros f0 f1 H0 H1. unfold hint_lane, make_hint, cmpgt_epi32, cmpeq_epi32, sign_epi32, abs_epi32, or_si256. cbv zeta. unfold GAMMA2. change (Z.opp 95232) with (-95232).
  rewrite i32_id by (unfold in32; lia).
  destruct (Z.ltb_spec 95232 (Z.abs f0)) as [A|A].
  - assert (E : (95232 <? f0) || (f0 <? -95232) = true). { apply orb_true_iff. rewrite !Z.ltb_lt. lia. }
    rewrite E. cbn [orb Z.eqb negb]. destruct (Z.ltb_spec f1 0); [lia|]. rewrite Z.lor_m1_l. reflexivity.
  - assert (E : (95232 <? f0) || (f0 <? -95232) = false). { apply orb_false_iff. rewrite !Z.ltb_ge. lia. }
    rewrite E. rewrite orb_false_l. rewrite Z.lor_0_l. destruct (Z.ltb_spec f1 0); [lia|].
    destruct (f0 =? -95232), (f1 =? 0); reflexivity.
Qed.
