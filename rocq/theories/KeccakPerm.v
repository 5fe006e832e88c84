(** * KeccakPerm: KeccakF1600_StatePermute is Keccak-f[1600]. *)
From Coq Require Import ZArith List Lia Bool.
From Verif Require Import Base Bits Keccak KeccakSpec.
Import ListNotations.
Open Scope Z_scope.

(** ** Words *)
Definition w64 (a : Z) : Prop := 0 <= a < 2 ^ 64.
Lemma u64_w : forall a, w64 (u64 a).
Proof. intro a. unfold u64, w64. change (2 ^ 64) with 18446744073709551616. apply Z.mod_pos_bound. lia. Qed.
Lemma lxor_w : forall a b, w64 a -> w64 b -> w64 (Z.lxor a b).
Proof.
  intros a b [A0 A] [B0 B]. split; [apply Z.lxor_nonneg; lia|].
  destruct (Z.eq_dec (Z.lxor a b) 0) as [->|N]; [lia|]. apply Z.log2_lt_pow2; [assert (0 <= Z.lxor a b) by (apply Z.lxor_nonneg; lia); lia|].
  eapply Z.le_lt_trans; [apply Z.log2_lxor; assumption|]. apply Z.max_lub_lt.
  - destruct (Z.eq_dec a 0) as [->|]; [reflexivity|]. apply Z.log2_lt_pow2; lia.
  - destruct (Z.eq_dec b 0) as [->|]; [reflexivity|]. apply Z.log2_lt_pow2; lia.
Qed.
Lemma land_w : forall a b, w64 b -> w64 (Z.land a b).
Proof. intros. apply land_bound; [lia|assumption]. Qed.
Lemma not64_w : forall a, w64 (not64 a).
Proof. intro. apply u64_w. Qed.
Lemma shiftr_w : forall a n, 0 <= n -> w64 a -> w64 (Z.shiftr a n).
Proof.
  intros a n N [A0 A]. rewrite Z.shiftr_div_pow2 by exact N. split; [apply Z.div_pos; [lia|apply Z.pow_pos_nonneg; lia]|].
  eapply Z.le_lt_trans; [|exact A]. apply Z.div_le_upper_bound; [apply Z.pow_pos_nonneg; lia|].
  assert (0 < 2 ^ n) by (apply Z.pow_pos_nonneg; lia). nia.
Qed.
Lemma ROL_w : forall a n, 0 <= n <= 64 -> w64 a -> w64 (ROL a n).
Proof. intros a n N A. apply lxor_w; [apply u64_w|apply shiftr_w; [lia|exact A]]. Qed.
(** Bits of a rotation and of a complement. *)
Lemma ROL_bit : forall a n z, (0 < n < 64)%nat -> (z < 64)%nat -> w64 a ->
  Z.testbit (ROL a (Z.of_nat n)) (Z.of_nat z) = Z.testbit a (Z.of_nat ((z + 64 - n) mod 64)).
Proof.
  intros a n z N Hz A. unfold ROL. rewrite Z.lxor_spec, testbit_u64, Z.shiftr_spec by lia.
  replace (Z.of_nat z <? 64) with true by (symmetry; apply Z.ltb_lt; lia). cbn [andb].
  rewrite Z.shiftl_spec by lia. destruct (Nat.lt_ge_cases z n) as [L|L].
  - rewrite Z.testbit_neg_r by lia. rewrite xorb_false_l, Nat.mod_small by lia. f_equal. lia.
  - rewrite (testbit_high a 64 (Z.of_nat z + (64 - Z.of_nat n))) by (unfold w64 in A; lia). rewrite xorb_false_r.
    replace (z + 64 - n)%nat with (z - n + 1 * 64)%nat by lia. rewrite Nat.mod_add, Nat.mod_small by lia. f_equal. lia.
Qed.
Lemma not64_bit : forall a z, (z < 64)%nat -> Z.testbit (not64 a) (Z.of_nat z) = negb (Z.testbit a (Z.of_nat z)).
Proof.
  intros a z H. unfold not64. rewrite testbit_u64 by lia. replace (Z.of_nat z <? 64) with true by (symmetry; apply Z.ltb_lt; lia).
  cbn [andb]. apply Z.lnot_spec. lia.
Qed.

(** ** The round on lanes *)
Definition wf (s : list Z) : Prop := List.length s = 25%nat /\ Forall w64 s.
Definition lane (s : list Z) (x y : nat) : Z := nth (5 * y + x) s 0.
Lemma lane_w : forall s x y, wf s -> (x < 5)%nat -> (y < 5)%nat -> w64 (lane s x y).
Proof.
  intros s x y [L F] X Y. rewrite Forall_forall in F. apply F. apply nth_In. rewrite L. lia.
Qed.
Definition lC (s : list Z) (x : nat) : Z :=
  Z.lxor (Z.lxor (Z.lxor (Z.lxor (lane s x 0) (lane s x 1)) (lane s x 2)) (lane s x 3)) (lane s x 4).
Definition lD (s : list Z) (x : nat) : Z := Z.lxor (lC s ((x + 4) mod 5)) (ROL (lC s ((x + 1) mod 5)) 1).
Definition lT (s : list Z) (x y : nat) : Z := Z.lxor (lane s x y) (lD s x).
Definition rotl (a : Z) (n : nat) : Z := match n with O => a | _ => ROL a (Z.of_nat n) end.
Definition lB (s : list Z) (x y : nat) : Z := let x' := ((x + 3 * y) mod 5)%nat in rotl (lT s x' x) (rho_offset x' x mod 64).
Definition lX (s : list Z) (x y : nat) : Z := Z.lxor (lB s x y) (Z.land (not64 (lB s ((x + 1) mod 5) y)) (lB s ((x + 2) mod 5) y)).
Definition lE (rc : Z) (s : list Z) (x y : nat) : Z :=
  if (x =? 0)%nat && (y =? 0)%nat then Z.lxor (lX s x y) rc else lX s x y.
Definition lround (rc : Z) (s : list Z) : list Z := map (fun i => lE rc s (i mod 5) (i / 5)) (seq 0 25).

Lemma list25 : forall s : list Z, List.length s = 25%nat -> exists a0 a1 a2 a3 a4 a5 a6 a7 a8 a9 a10 a11 a12 a13 a14 a15 a16 a17 a18 a19 a20 a21 a22 a23 a24,
  s = [a0; a1; a2; a3; a4; a5; a6; a7; a8; a9; a10; a11; a12; a13; a14; a15; a16; a17; a18; a19; a20; a21; a22; a23; a24].
Proof.
  intros s L. do 25 (destruct s as [|? s]; [discriminate|]). destruct s; [|discriminate]. repeat eexists.
Qed.
Lemma round_AE_eq : forall rc s, List.length s = 25%nat -> round_AE rc s = lround rc s.
Proof.
  intros rc s L. destruct (list25 s L) as (a0 & a1 & a2 & a3 & a4 & a5 & a6 & a7 & a8 & a9 & a10 & a11 & a12 & a13 & a14 & a15 & a16 & a17 & a18 & a19 & a20 & a21 & a22 & a23 & a24 & ->).
  cbv -[Z.lxor Z.land ROL not64]. reflexivity.
Qed.
Lemma round_EA_eq : forall rc s, List.length s = 25%nat -> round_EA rc s = lround rc s.
Proof.
  intros rc s L. destruct (list25 s L) as (a0 & a1 & a2 & a3 & a4 & a5 & a6 & a7 & a8 & a9 & a10 & a11 & a12 & a13 & a14 & a15 & a16 & a17 & a18 & a19 & a20 & a21 & a22 & a23 & a24 & ->).
  cbv -[Z.lxor Z.land ROL not64]. reflexivity.
Qed.

(** ** Lanes and bits *)
Definition rel (s : list Z) (A : array) : Prop :=
  forall x y z, (x < 5)%nat -> (y < 5)%nat -> (z < 64)%nat -> Z.testbit (lane s x y) (Z.of_nat z) = A x y z.
Lemma lC_w : forall s x, wf s -> (x < 5)%nat -> w64 (lC s x).
Proof. intros s x W X. unfold lC. repeat apply lxor_w; apply lane_w; try assumption; lia. Qed.
Lemma lD_w : forall s x, wf s -> w64 (lD s x).
Proof.
  intros s x W. apply lxor_w; [|apply ROL_w; [lia|]]; apply lC_w; try exact W; apply Nat.mod_upper_bound; discriminate.
Qed.
Lemma lT_w : forall s x y, wf s -> (x < 5)%nat -> (y < 5)%nat -> w64 (lT s x y).
Proof. intros s x y W X Y. apply lxor_w; [apply lane_w; assumption|apply lD_w; exact W]. Qed.
Lemma rotl_w : forall a n, (n < 64)%nat -> w64 a -> w64 (rotl a n).
Proof. intros a [|n] N A; [exact A|]. apply ROL_w; [lia|exact A]. Qed.
Lemma lB_w : forall s x y, wf s -> (x < 5)%nat -> w64 (lB s x y).
Proof.
  intros s x y W X. apply rotl_w; [apply Nat.mod_upper_bound; discriminate|].
  apply lT_w; [exact W|apply Nat.mod_upper_bound; discriminate|exact X].
Qed.
Lemma lX_w : forall s x y, wf s -> (x < 5)%nat -> w64 (lX s x y).
Proof.
  intros s x y W X. apply lxor_w; [apply lB_w; assumption|]. apply land_w, lB_w; [exact W|apply Nat.mod_upper_bound; discriminate].
Qed.
Lemma lE_w : forall rc s x y, w64 rc -> wf s -> (x < 5)%nat -> w64 (lE rc s x y).
Proof.
  intros rc s x y R W X. unfold lE. destruct (_ && _)%bool; [apply lxor_w; [|exact R]|]; apply lX_w; assumption.
Qed.
Lemma lround_wf : forall rc s, w64 rc -> wf s -> wf (lround rc s).
Proof.
  intros rc s R W. split; [unfold lround; rewrite map_length, seq_length; reflexivity|].
  apply Forall_forall. intros v V. apply in_map_iff in V. destruct V as [i [<- I]]. apply in_seq in I.
  apply lE_w; try assumption. apply Nat.mod_upper_bound. discriminate.
Qed.
Lemma lround_lane : forall rc s x y, (x < 5)%nat -> (y < 5)%nat -> lane (lround rc s) x y = lE rc s x y.
Proof.
  intros rc s x y X Y. unfold lane, lround.
  rewrite (nth_indep _ 0 (lE rc s (0 mod 5) (0 / 5))) by (rewrite map_length, seq_length; lia).
  rewrite (map_nth (fun i => lE rc s (i mod 5) (i / 5))). rewrite seq_nth by lia. rewrite Nat.add_0_l.
  rewrite (Nat.mul_comm 5 y), Nat.div_add_l by discriminate. rewrite (Nat.add_comm (y * 5)), Nat.mod_add by discriminate.
  rewrite (Nat.mod_small x 5) by exact X. rewrite (Nat.div_small x 5) by exact X. rewrite Nat.add_0_r. reflexivity.
Qed.
(** The offsets are at most 300, and 0 only (mod 64) for lane (0, 0). *)
Lemma rho_offset_le : forall x y, (x < 5)%nat -> (y < 5)%nat -> (rho_offset x y <= 300)%nat.
Proof.
  assert (A : forallb (fun x => forallb (fun y => (rho_offset x y <=? 300)%nat) (seq 0 5)) (seq 0 5) = true) by reflexivity.
  intros x y X Y. rewrite forallb_forall in A. specialize (A x (proj2 (in_seq 5 0 x) ltac:(lia))).
  rewrite forallb_forall in A. apply Nat.leb_le, A, in_seq. lia.
Qed.
Lemma rot_index : forall z o, (z < 64)%nat -> (o <= 300)%nat -> ((z + 64 * 6 - o) mod 64 = (z + 64 - o mod 64) mod 64)%nat.
Proof.
  intros z o Hz Ho. pose proof (Nat.mod_upper_bound o 64 ltac:(discriminate)) as U.
  pose proof (Nat.div_mod o 64 ltac:(discriminate)) as D. assert (Q : (o / 64 <= 4)%nat) by (assert (o / 64 < 5)%nat by (apply Nat.div_lt_upper_bound; lia); lia).
  replace (z + 64 * 6 - o)%nat with (z + 64 - o mod 64 + (5 - o / 64) * 64)%nat by lia. apply Nat.mod_add. discriminate.
Qed.
Lemma rotl_bit : forall a n z, (n < 64)%nat -> (z < 64)%nat -> w64 a ->
  Z.testbit (rotl a n) (Z.of_nat z) = Z.testbit a (Z.of_nat ((z + 64 - n) mod 64)).
Proof.
  intros a [|n] z N Hz A; cbn [rotl].
  - rewrite Nat.sub_0_r. replace (z + 64)%nat with (z + 1 * 64)%nat by lia. rewrite Nat.mod_add, Nat.mod_small by lia. reflexivity.
  - apply ROL_bit; [lia|exact Hz|exact A].
Qed.
Lemma lC_bit : forall s A x z, rel s A -> (x < 5)%nat -> (z < 64)%nat ->
  Z.testbit (lC s x) (Z.of_nat z) = xorb (xorb (xorb (xorb (A x 0%nat z) (A x 1%nat z)) (A x 2%nat z)) (A x 3%nat z)) (A x 4%nat z).
Proof. intros s A x z R X Hz. unfold lC. rewrite !Z.lxor_spec, !R by lia. reflexivity. Qed.
Lemma lT_bit : forall s A, wf s -> rel s A -> forall x y z, (x < 5)%nat -> (y < 5)%nat -> (z < 64)%nat ->
  Z.testbit (lT s x y) (Z.of_nat z) = theta A x y z.
Proof.
  intros s A W R x y z X Y Hz. unfold lT, lD, theta. rewrite !Z.lxor_spec, R by assumption.
  rewrite (lC_bit s A) by (try assumption; apply Nat.mod_upper_bound; discriminate).
  rewrite (ROL_bit _ 1) by first [lia | apply lC_w; [exact W|apply Nat.mod_upper_bound; discriminate]].
  replace (z + 64 - 1)%nat with (z + 63)%nat by lia.
  rewrite (lC_bit s A) by (try assumption; apply Nat.mod_upper_bound; discriminate). reflexivity.
Qed.
Lemma lB_bit : forall s A, wf s -> rel s A -> forall x y z, (x < 5)%nat -> (y < 5)%nat -> (z < 64)%nat ->
  Z.testbit (lB s x y) (Z.of_nat z) = pi (rho (theta A)) x y z.
Proof.
  intros s A W R x y z X Y Hz. unfold lB, pi, rho. cbv zeta.
  assert (X' : ((x + 3 * y) mod 5 < 5)%nat) by (apply Nat.mod_upper_bound; discriminate).
  rewrite rotl_bit; [|apply Nat.mod_upper_bound; discriminate|exact Hz|apply lT_w; assumption].
  rewrite (lT_bit s A); [|exact W|exact R|exact X'|exact X|apply Nat.mod_upper_bound; discriminate].
  rewrite rot_index; [reflexivity|exact Hz|apply rho_offset_le; assumption].
Qed.
Lemma lround_rel : forall rc ir s A, (forall z, (z < 64)%nat -> Z.testbit rc (Z.of_nat z) = RC ir z) ->
  wf s -> rel s A -> rel (lround rc s) (Rnd ir A).
Proof.
  intros rc ir s A C W R x y z X Y Hz. rewrite lround_lane by assumption.
  assert (XX : Z.testbit (lX s x y) (Z.of_nat z) = chi (pi (rho (theta A))) x y z).
  { unfold lX, chi. rewrite Z.lxor_spec, Z.land_spec, not64_bit by exact Hz.
    rewrite !(lB_bit s A) by (try assumption; apply Nat.mod_upper_bound; discriminate). rewrite xorb_true_r. reflexivity. }
  unfold lE, Rnd, iota. destruct (_ && _)%bool; [rewrite Z.lxor_spec, XX, C by exact Hz|rewrite XX]; reflexivity.
Qed.

(** ** 24 rounds *)
Lemma rc_ok : forall ir, (ir < 24)%nat -> forall z, (z < 64)%nat ->
  Z.testbit (nth ir KeccakF_RoundConstants 0) (Z.of_nat z) = RC ir z.
Proof.
  assert (A : forallb (fun ir => forallb (fun z => Bool.eqb (Z.testbit (nth ir KeccakF_RoundConstants 0) (Z.of_nat z)) (RC ir z)) (seq 0 64)) (seq 0 24) = true)
    by reflexivity.
  intros ir I z Hz. rewrite forallb_forall in A. specialize (A ir (proj2 (in_seq 24 0 ir) ltac:(lia))).
  rewrite forallb_forall in A. apply eqb_prop, A, in_seq. lia.
Qed.
Lemma rc_w : forall ir, w64 (nth ir KeccakF_RoundConstants 0).
Proof.
  intro ir. destruct (nth_in_or_default ir KeccakF_RoundConstants 0) as [I| ->]; [|split; [lia|reflexivity]].
  assert (A : Forall w64 KeccakF_RoundConstants) by (unfold KeccakF_RoundConstants; repeat constructor; unfold w64; lia).
  rewrite Forall_forall in A. apply A, I.
Qed.
Definition rounds (l : list nat) (s : list Z) : list Z := fold_left (fun s ir => lround (nth ir KeccakF_RoundConstants 0) s) l s.
Lemma rounds_ok : forall l s A, Forall (fun ir => (ir < 24)%nat) l -> wf s -> rel s A ->
  wf (rounds l s) /\ rel (rounds l s) (fold_left (fun A ir => Rnd ir A) l A).
Proof.
  intros l. induction l as [|ir l IH]; intros s A F W R; [split; assumption|]. inversion F as [|? ? F1 F2]; subst.
  unfold rounds. cbn [fold_left]. apply IH; [exact F2|apply lround_wf; [apply rc_w|exact W]|].
  apply lround_rel; [apply rc_ok, F1|exact W|exact R].
Qed.
Lemma lround_length : forall rc s, List.length (lround rc s) = 25%nat.
Proof. intros. unfold lround. rewrite map_length, seq_length. reflexivity. Qed.
Lemma pairs_rounds : forall n k s, List.length s = 25%nat ->
  fold_left (fun s k => round_EA (nth (2 * k + 1) KeccakF_RoundConstants 0)
                          (round_AE (nth (2 * k) KeccakF_RoundConstants 0) s)) (seq k n) s = rounds (seq (2 * k) (2 * n)) s.
Proof.
  intro n. induction n as [|n IH]; intros k s L; [reflexivity|].
  replace (2 * S n)%nat with (S (S (2 * n)))%nat by lia. cbn [seq fold_left]. rewrite (round_AE_eq _ s L). rewrite (round_EA_eq _ (lround _ s)) by apply lround_length.
  rewrite IH by apply lround_length. unfold rounds. cbn [fold_left].
  replace (S (2 * k)) with (2 * k + 1)%nat by lia. replace (S (2 * k + 1)) with (2 * S k)%nat by lia. reflexivity.
Qed.
Lemma permute_rounds : forall s, List.length s = 25%nat -> StatePermute s = rounds (seq 0 24) s.
Proof. intros s L. exact (pairs_rounds 12 0 s L). Qed.

(** ** The state as a bit string *)
Definition sbit (s : list Z) (i : nat) : bool := Z.testbit (nth (i / 64) s 0) (Z.of_nat (i mod 64)).
Definition sbits (s : list Z) : list bool := map (sbit s) (seq 0 1600).
Lemma sbits_length : forall s, List.length (sbits s) = 1600%nat.
Proof. intro s. unfold sbits. rewrite map_length. apply seq_length. Qed.
Lemma nth_sbits : forall s i, (i < 1600)%nat -> nth i (sbits s) false = sbit s i.
Proof.
  intros s i H. rewrite (nth_indep _ false (sbit s 0)) by (rewrite sbits_length; exact H). unfold sbits. rewrite (map_nth (sbit s)).
  rewrite seq_nth by exact H. reflexivity.
Qed.
Lemma sbits_rel : forall s, rel s (array_of (sbits s)).
Proof.
  intros s x y z X Y Hz. unfold array_of, lane. rewrite nth_sbits by lia. unfold sbit.
  rewrite (Nat.mul_comm 64), Nat.div_add_l by discriminate. rewrite (Nat.div_small z), Nat.add_0_r by exact Hz.
  rewrite (Nat.add_comm _ z), Nat.mod_add, Nat.mod_small by (try discriminate; exact Hz). reflexivity.
Qed.
(** KeccakF1600_StatePermute computes Keccak-f[1600]. *)
Theorem permute_is_keccak_f : forall s, wf s -> wf (StatePermute s) /\ sbits (StatePermute s) = keccak_f (sbits s).
Proof.
  intros s W. rewrite permute_rounds by apply W.
  destruct (rounds_ok (seq 0 24) s (array_of (sbits s))) as [W' R'].
  { apply Forall_forall. intros i I. apply in_seq in I. lia. }
  { exact W. } { apply sbits_rel. }
  split; [exact W'|]. unfold keccak_f, string_of, sbits at 1. apply map_ext_in. intros i I. apply in_seq in I.
  rewrite <- R'.
  - unfold sbit, lane. rewrite <- (Nat.div_mod (i / 64) 5) by discriminate. reflexivity.
  - apply Nat.mod_upper_bound. discriminate.
  - apply Nat.div_lt_upper_bound; [discriminate|]. apply Nat.div_lt_upper_bound; [discriminate|]. lia.
  - apply Nat.mod_upper_bound. discriminate.
Qed.
