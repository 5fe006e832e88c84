(** * DilArith: reduce.c and rounding.c of pqclean/crypto_sign/dilithium2/clean.

    The C code computes on [int32_t]/[int64_t].  A value of such a type is an integer [Z] in
    range; signed overflow, a left shift of a negative value and an access outside an array are
    undefined behaviour, modelled by [CUB].  Loops that draw from a hash until enough samples
    are accepted have no bound in C: they are run with a budget, and [CFuel] says that the
    budget was too small. *)
From Coq Require Import ZArith List Lia Bool Zquot.
From Verif Require Import Base Bits.
Import ListNotations.
Open Scope Z_scope.

(** Outcome of a C function: a result, undefined behaviour, or budget exhausted. *)
Inductive crun (A : Type) : Type :=
| CRet (a : A)
| CUB
| CFuel.
Arguments CRet {A} a.
Arguments CUB {A}.
Arguments CFuel {A}.
Definition cbind {A B} (x : crun A) (f : A -> crun B) : crun B :=
  match x with CRet a => f a | CUB => CUB | CFuel => CFuel end.
Notation "'do' x '<-' e ';;' k" := (cbind e (fun x => k))
  (at level 200, x pattern, e at level 100, k at level 200, right associativity).

(** Conversion to [int32_t] of a wider value (two's complement). *)
Definition i32 (x : Z) : Z := (x + 2147483648) mod 4294967296 - 2147483648.
Definition in32 (x : Z) : Prop := -2147483648 <= x < 2147483648.
(** The result of a signed 32-bit (64-bit) operation whose exact value is [x]. *)
Definition chk32 (x : Z) : crun Z :=
  if (-2147483648 <=? x) && (x <? 2147483648) then CRet x else CUB.
Definition chk64 (x : Z) : crun Z :=
  if (-9223372036854775808 <=? x) && (x <? 9223372036854775808) then CRet x else CUB.
(** [x << n] on a signed value. *)
Definition shl32 (x n : Z) : crun Z := if x <? 0 then CUB else chk32 (x * 2 ^ n).

(** params.h 4-23. *)
Definition Q : Z := 8380417.
Definition DD : Z := 13.
Definition ETA : Z := 2.
Definition TAU : nat := 39.
Definition BETA : Z := 78.
Definition GAMMA1 : Z := 131072.
Definition GAMMA2 : Z := 95232.
Definition OMEGA : nat := 80.
(** reduce.h 7. *)
Definition QINV : Z := 58728449.

(** reduce.c 15-21: [montgomery_reduce]. [(int32_t)((uint64_t)a * QINV)] keeps the low 32
    bits. *)
Definition montgomery_reduce (a : Z) : crun Z :=
  let t := i32 (a * QINV) in
  do d <- chk64 (a - t * Q) ;;
  CRet (i32 (Z.shiftr d 32)).

(** reduce.c 33-39: [reduce32]. *)
Definition reduce32 (a : Z) : crun Z :=
  do s <- chk32 (a + 4194304) ;;
  let t := Z.shiftr s 23 in
  do p <- chk32 (t * Q) ;;
  chk32 (a - p).

(** reduce.c 50-53: [caddq]. *)
Definition caddq (a : Z) : crun Z := chk32 (a + Z.land (Z.shiftr a 31) Q).

(** reduce.c 65-69: [freeze]. *)
Definition freeze (a : Z) : crun Z := do r <- reduce32 a ;; caddq r.

(** rounding.c 18-24: [power2round]; returns (a1, a0). *)
Definition power2round (a : Z) : crun (Z * Z) :=
  do s <- chk32 (a + 4096) ;;
  do s' <- chk32 (s - 1) ;;
  let a1 := Z.shiftr s' DD in
  do p <- shl32 a1 DD ;;
  do a0 <- chk32 (a - p) ;;
  CRet (a1, a0).

(** rounding.c 40-50: [decompose]; returns (a1, a0). *)
Definition decompose (a : Z) : crun (Z * Z) :=
  do s <- chk32 (a + 127) ;;
  let a1 := Z.shiftr s 7 in
  do p <- chk32 (a1 * 11275) ;;
  do p' <- chk32 (p + 8388608) ;;
  let a1 := Z.shiftr p' 24 in
  do d <- chk32 (43 - a1) ;;
  let a1 := Z.lxor a1 (Z.land (Z.shiftr d 31) a1) in
  do m <- chk32 (a1 * 2) ;;
  do m' <- chk32 (m * GAMMA2) ;;
  do a0 <- chk32 (a - m') ;;
  do e <- chk32 ((Q - 1) / 2 - a0) ;;
  do a0' <- chk32 (a0 - Z.land (Z.shiftr e 31) Q) ;;
  CRet (a1, a0').

(** rounding.c 63-69: [make_hint]. *)
Definition make_hint (a0 a1 : Z) : Z :=
  if (GAMMA2 <? a0) || (a0 <? - GAMMA2) || ((a0 =? - GAMMA2) && negb (a1 =? 0)) then 1 else 0.

(** rounding.c 81-98: [use_hint]. *)
Definition use_hint (a hint : Z) : crun Z :=
  do (a1, a0) <- decompose a ;;
  if hint =? 0 then CRet a1
  else if 0 <? a0 then (if a1 =? 43 then CRet 0 else CRet (a1 + 1))
  else (if a1 =? 0 then CRet 43 else CRet (a1 - 1)).

(* ------------------------------------------------------------------ *)
(** ** Facts *)

Lemma chk32_ok : forall x, in32 x -> chk32 x = CRet x.
Proof.
  intros x [H1 H2]. unfold chk32. apply Z.leb_le in H1. apply Z.ltb_lt in H2.
  rewrite H1, H2. reflexivity.
Qed.
Lemma chk64_ok : forall x, -9223372036854775808 <= x < 9223372036854775808 -> chk64 x = CRet x.
Proof.
  intros x [H1 H2]. unfold chk64. apply Z.leb_le in H1. apply Z.ltb_lt in H2.
  rewrite H1, H2. reflexivity.
Qed.
Lemma i32_id : forall x, in32 x -> i32 x = x.
Proof. intros x H. unfold i32, in32 in *. rewrite Z.mod_small; lia. Qed.
Lemma i32_range : forall x, in32 (i32 x).
Proof. intro x. unfold i32, in32. pose proof (Z.mod_pos_bound (x + 2147483648) 4294967296). lia. Qed.
Lemma i32_cong : forall x, exists k, i32 x = x + k * 4294967296.
Proof.
  intro x. unfold i32. exists (- ((x + 2147483648) / 4294967296)).
  pose proof (Z.div_mod (x + 2147483648) 4294967296). lia.
Qed.

(** The congruence used throughout: equality modulo the prime. *)
Definition eqq (x y : Z) : Prop := exists k, x = y + k * Q.

Lemma eqq_refl : forall x, eqq x x. Proof. intro. exists 0. lia. Qed.
Lemma eqq_sym : forall x y, eqq x y -> eqq y x.
Proof. intros x y [k ->]. exists (-k). lia. Qed.
Lemma eqq_trans : forall x y z, eqq x y -> eqq y z -> eqq x z.
Proof. intros x y z [k ->] [l ->]. exists (k + l). lia. Qed.
Lemma eqq_add : forall a b c d, eqq a b -> eqq c d -> eqq (a + c) (b + d).
Proof. intros a b c d [k ->] [l ->]. exists (k + l). lia. Qed.
Lemma eqq_sub : forall a b c d, eqq a b -> eqq c d -> eqq (a - c) (b - d).
Proof. intros a b c d [k ->] [l ->]. exists (k - l). lia. Qed.
Lemma eqq_opp : forall a b, eqq a b -> eqq (- a) (- b).
Proof. intros a b [k ->]. exists (-k). lia. Qed.
Lemma eqq_mul : forall a b c d, eqq a b -> eqq c d -> eqq (a * c) (b * d).
Proof. intros a b c d [k ->] [l ->]. exists (b * l + k * d + k * l * Q). ring. Qed.
Lemma eqq_mod : forall x y, eqq x y <-> x mod Q = y mod Q.
Proof.
  intros x y. split.
  - intros [k ->]. apply Z.mod_add. discriminate.
  - intro H. exists (x / Q - y / Q).
    pose proof (Z.div_mod x Q ltac:(discriminate)). pose proof (Z.div_mod y Q ltac:(discriminate)). nia.
Qed.
(** 2^32 is invertible modulo Q. *)
Definition RINV : Z := 8265825.
Lemma R_inv : eqq (4294967296 * RINV) 1.
Proof. exists (4294967296 * RINV / Q). vm_compute. reflexivity. Qed.
Lemma eqq_cancel_R : forall x y, eqq (x * 4294967296) (y * 4294967296) -> eqq x y.
Proof.
  intros x y H.
  assert (A : forall z, eqq (z * 4294967296 * RINV) z).
  { intro z. rewrite <- (Z.mul_1_r z) at 2. rewrite <- Z.mul_assoc. apply eqq_mul; [apply eqq_refl|apply R_inv]. }
  eapply eqq_trans; [apply eqq_sym, A|]. eapply eqq_trans; [|apply A].
  apply eqq_mul; [exact H|apply eqq_refl].
Qed.

(** [montgomery_reduce]: never undefined on a product of two 32-bit values; when the input is
    at most 2^31*Q in absolute value, the result is strictly between -Q and Q. *)
Theorem montgomery_reduce_ok : forall a, -(2147483648 * Q) <= a <= 2147483647 * Q ->
  exists r, montgomery_reduce a = CRet r /\ - Q < r < Q /\ eqq (r * 4294967296) a.
Proof.
  intros a H. unfold montgomery_reduce.
  set (t := i32 (a * QINV)).
  assert (Ht : in32 t) by apply i32_range.
  destruct (i32_cong (a * QINV)) as [k Hk]. fold t in Hk.
  assert (D : (a - t * Q) mod 4294967296 = 0).
  { rewrite Hk. replace (a - (a * QINV + k * 4294967296) * Q)
      with ((a * -114592 - k * Q) * 4294967296) by (unfold QINV, Q; ring).
    apply Z.mod_mul. discriminate. }
  unfold in32, Q in *.
  rewrite chk64_ok by lia. cbn [cbind].
  rewrite Z.shiftr_div_pow2 by lia. change (2 ^ 32) with 4294967296.
  pose proof (Z.div_mod (a - t * 8380417) 4294967296 ltac:(discriminate)) as E.
  rewrite D in E. set (r := (a - t * 8380417) / 4294967296) in *.
  exists r. rewrite i32_id by (unfold in32; lia). split; [reflexivity|]. split; [lia|].
  exists (-t). unfold Q. lia.
Qed.

(** The result is close to half of Q when the input is small. *)
Theorem montgomery_reduce_bound : forall a r, -(2147483648 * Q) <= a <= 2147483647 * Q ->
  montgomery_reduce a = CRet r -> - (Z.abs a + 2147483648 * Q) <= r * 4294967296 <= Z.abs a + 2147483648 * Q.
Proof.
  intros a r H. unfold montgomery_reduce.
  set (t := i32 (a * QINV)).
  assert (Ht : in32 t) by apply i32_range.
  destruct (i32_cong (a * QINV)) as [k Hk]. fold t in Hk.
  assert (D : (a - t * Q) mod 4294967296 = 0).
  { rewrite Hk. replace (a - (a * QINV + k * 4294967296) * Q)
      with ((a * -114592 - k * Q) * 4294967296) by (unfold QINV, Q; ring).
    apply Z.mod_mul. discriminate. }
  unfold in32, Q in *.
  rewrite chk64_ok by lia. cbn [cbind].
  rewrite Z.shiftr_div_pow2 by lia. change (2 ^ 32) with 4294967296.
  pose proof (Z.div_mod (a - t * 8380417) 4294967296 ltac:(discriminate)) as E.
  rewrite D in E. set (q := (a - t * 8380417) / 4294967296) in *.
  rewrite i32_id by (unfold in32; lia). intro R. injection R as <-. lia.
Qed.

Corollary montgomery_product : forall x y, in32 x -> - Q < y < Q ->
  exists r, montgomery_reduce (x * y) = CRet r /\ - Q < r < Q /\ eqq (r * 4294967296) (x * y).
Proof. intros x y Hx Hy. apply montgomery_reduce_ok. unfold in32, Q in *. nia. Qed.

(** [reduce32]: the documented input and output ranges. *)
Theorem reduce32_ok : forall a, -2147483648 <= a <= 2147483648 - 4194304 - 1 ->
  exists r, reduce32 a = CRet r /\ -6283009 <= r <= 6283008 /\ eqq r a.
Proof.
  intros a H. unfold reduce32.
  rewrite chk32_ok by (unfold in32; lia). cbn [cbind].
  rewrite Z.shiftr_div_pow2 by lia. change (2 ^ 23) with 8388608.
  pose proof (Z.div_mod (a + 4194304) 8388608 ltac:(discriminate)).
  pose proof (Z.mod_pos_bound (a + 4194304) 8388608 ltac:(lia)).
  set (t := (a + 4194304) / 8388608) in *. unfold Q.
  rewrite chk32_ok by (unfold in32; lia). cbn [cbind].
  exists (a - t * 8380417). rewrite chk32_ok by (unfold in32; lia).
  split; [reflexivity|]. split; [lia|]. exists (-t). unfold Q. lia.
Qed.

Lemma land_m1 : forall x, Z.land (-1) x = x. Proof. exact Z.land_m1_l. Qed.

Lemma shiftr31_neg : forall a, -2147483648 <= a < 0 -> Z.shiftr a 31 = -1.
Proof.
  intros a H. rewrite Z.shiftr_div_pow2 by lia. change (2 ^ 31) with 2147483648.
  symmetry. apply (Z.div_unique_pos _ _ _ (a + 2147483648)); lia.
Qed.
Lemma shiftr31_pos : forall a, 0 <= a < 2147483648 -> Z.shiftr a 31 = 0.
Proof. intros a H. rewrite Z.shiftr_div_pow2 by lia. apply Z.div_small. exact H. Qed.

Theorem caddq_ok : forall a, in32 a ->
  caddq a = CRet (if a <? 0 then a + Q else a).
Proof.
  intros a H. unfold caddq, in32 in *. destruct (Z.ltb_spec a 0).
  - rewrite shiftr31_neg, land_m1 by lia. apply chk32_ok. unfold in32, Q. lia.
  - rewrite shiftr31_pos, Z.land_0_l, Z.add_0_r by lia. apply chk32_ok. unfold in32. lia.
Qed.

Corollary caddq_range : forall a, - Q < a < Q ->
  exists r, caddq a = CRet r /\ 0 <= r < Q /\ eqq r a.
Proof.
  intros a H. rewrite caddq_ok by (unfold in32, Q in *; lia).
  eexists; split; [reflexivity|]. destruct (Z.ltb_spec a 0); unfold Q in *.
  - split; [lia|]. exists 1. unfold Q. lia.
  - split; [lia|]. apply eqq_refl.
Qed.

Theorem freeze_ok : forall a, -2147483648 <= a <= 2147483648 - 4194304 - 1 ->
  freeze a = CRet (a mod Q).
Proof.
  intros a H. unfold freeze. destruct (reduce32_ok a H) as (r & -> & Hr & E). cbn [cbind].
  destruct (caddq_range r) as (s & -> & Hs & E2); [unfold Q; lia|].
  f_equal. apply eqq_mod in E, E2. rewrite <- E, <- E2, Z.mod_small; auto.
Qed.

(** [power2round] on a standard representative. *)
Theorem power2round_ok : forall a, 0 <= a < Q ->
  exists a1 a0, power2round a = CRet (a1, a0) /\ a = a1 * 8192 + a0 /\
    -4096 < a0 <= 4096 /\ 0 <= a1 < 1024.
Proof.
  intros a H. unfold power2round, DD.
  rewrite !chk32_ok by (unfold in32, Q in *; lia). cbn [cbind].
  rewrite chk32_ok by (unfold in32, Q in *; lia). cbn [cbind].
  rewrite Z.shiftr_div_pow2 by lia. change (2 ^ 13) with 8192.
  pose proof (Z.div_mod (a + 4096 - 1) 8192 ltac:(discriminate)).
  pose proof (Z.mod_pos_bound (a + 4096 - 1) 8192 ltac:(lia)).
  set (t := (a + 4096 - 1) / 8192) in *. unfold Q in H.
  unfold shl32. destruct (Z.ltb_spec t 0); [lia|]. change (2 ^ 13) with 8192.
  rewrite chk32_ok by (unfold in32; lia). cbn [cbind].
  rewrite chk32_ok by (unfold in32; lia). cbn [cbind].
  exists t, (a - t * 8192). split; [reflexivity|]. lia.
Qed.

(** What [decompose] returns on a standard representative: the high part counted in units of
    2*GAMMA2 modulo 44, and the centred low part (rounding.c 27-34). *)
Definition decomposed (a a1 a0 : Z) : Prop :=
  (0 <= a1 < 44 /\ - GAMMA2 < a0 <= GAMMA2 /\ a = a1 * (2 * GAMMA2) + a0) \/
  (a1 = 0 /\ - GAMMA2 <= a0 < 0 /\ a = Q + a0).

Theorem decompose_ok : forall a, 0 <= a < Q ->
  exists a1 a0, decompose a = CRet (a1, a0) /\ decomposed a a1 a0.
Proof.
  intros a H. unfold decompose. unfold Q in H.
  rewrite chk32_ok by (unfold in32; lia). cbn [cbind].
  rewrite Z.shiftr_div_pow2 by lia. change (2 ^ 7) with 128.
  pose proof (Z.div_mod (a + 127) 128 ltac:(discriminate)).
  pose proof (Z.mod_pos_bound (a + 127) 128 ltac:(lia)).
  set (u := (a + 127) / 128) in *.
  assert (0 <= u <= 65472) by lia.
  rewrite chk32_ok by (unfold in32; lia). cbn [cbind].
  rewrite chk32_ok by (unfold in32; lia). cbn [cbind].
  rewrite Z.shiftr_div_pow2 by lia. change (2 ^ 24) with 16777216.
  pose proof (Z.div_mod (u * 11275 + 8388608) 16777216 ltac:(discriminate)).
  pose proof (Z.mod_pos_bound (u * 11275 + 8388608) 16777216 ltac:(lia)).
  set (v := (u * 11275 + 8388608) / 16777216) in *.
  assert (V : 0 <= v <= 44) by lia.
  rewrite chk32_ok by (unfold in32; lia). cbn [cbind].
  assert (B1 : v * 190464 - 95232 < a) by lia.
  assert (B2 : a <= v * 190464 + 95232) by lia.
  replace ((Q - 1) / 2) with 4190208 by reflexivity.
  clearbody v. clear - H V B1 B2. unfold decomposed, GAMMA2 in *.
  destruct (Z.eq_dec v 44) as [->|N].
  - change (Z.lxor 44 (Z.land (Z.shiftr (43 - 44) 31) 44)) with 0. cbn [Z.mul].
    do 3 (rewrite chk32_ok by (unfold in32; lia); cbn [cbind Z.mul]).
    rewrite (Z.sub_0_r a).
    rewrite chk32_ok by (unfold in32; lia). cbn [cbind].
    rewrite shiftr31_neg, land_m1 by lia. unfold Q.
    rewrite chk32_ok by (unfold in32; lia). cbn [cbind].
    exists 0, (a - 8380417). split; [reflexivity|]. right. lia.
  - rewrite shiftr31_pos, Z.land_0_l, Z.lxor_0_r by lia.
    do 4 (rewrite chk32_ok by (unfold in32; lia); cbn [cbind]).
    rewrite shiftr31_pos, Z.land_0_l, Z.sub_0_r by lia.
    rewrite chk32_ok by (unfold in32; lia). cbn [cbind].
    exists v, (a - v * 2 * 95232). split; [reflexivity|]. left. lia.
Qed.

Lemma decomposed_unique : forall a a1 a0 b1 b0, 0 <= a < Q ->
  decomposed a a1 a0 -> decomposed a b1 b0 -> a1 = b1 /\ a0 = b0.
Proof. unfold decomposed, GAMMA2, Q. intros. lia. Qed.

Lemma make_hint_bit : forall a0 a1, make_hint a0 a1 = 0 \/ make_hint a0 a1 = 1.
Proof. intros. unfold make_hint. destruct (_ || _); auto. Qed.

(** [use_hint] is total on standard representatives and yields a value below 44. *)
Theorem use_hint_ok : forall a h, 0 <= a < Q -> exists r, use_hint a h = CRet r /\ 0 <= r < 44.
Proof.
  intros a h H. unfold use_hint. destruct (decompose_ok a H) as (a1 & a0 & -> & D). cbn [cbind].
  assert (0 <= a1 < 44) by (unfold decomposed in D; lia).
  destruct (h =? 0); [eauto|]. destruct (0 <? a0).
  - destruct (Z.eqb_spec a1 43); eexists; split; eauto; lia.
  - destruct (Z.eqb_spec a1 0); eexists; split; eauto; lia.
Qed.

(** The hint repairs the high part: for a high part [w1] and any low part [a0] below 2*GAMMA2
    in absolute value, the verifier's [use_hint] on w1*2*GAMMA2 + a0 (mod Q) recovers [w1]. *)
Theorem hint_recovers : forall w1 a0 r, 0 <= w1 < 44 -> - (2 * GAMMA2) < a0 < 2 * GAMMA2 ->
  0 <= r < Q -> eqq r (w1 * (2 * GAMMA2) + a0) ->
  use_hint r (make_hint a0 w1) = CRet w1.
Proof.
  intros w1 a0 r H1 H0 Hr [k E]. unfold use_hint.
  destruct (decompose_ok r Hr) as (b1 & b0 & -> & D). cbn [cbind].
  unfold make_hint, decomposed, GAMMA2, Q in *.
  assert (K : k = 0 \/ k = 1 \/ k = -1) by lia.
  change (- (95232)) with (-95232) in *.
  destruct (Z.ltb_spec 95232 a0); [|destruct (Z.ltb_spec a0 (-95232));
    [|destruct (Z.eqb_spec a0 (-95232)); [destruct (Z.eqb_spec w1 0)|]]]; cbn [orb andb negb];
    cbn [Z.eqb]; try (f_equal; lia);
    destruct (Z.ltb_spec 0 b0); try destruct (Z.eqb_spec b1 43); try destruct (Z.eqb_spec b1 0);
    try (f_equal; lia); exfalso; lia.
Qed.
