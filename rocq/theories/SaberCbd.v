(** * SaberCbd: the bit-sliced sampler computes centred binomial samples. *)
From Coq Require Import ZArith List Lia Bool Arith.
From Verif Require Import Base Bits SaberPoly SaberKem SaberRing SaberVec SaberNoise SaberDec SaberSpec.
Import ListNotations.
Open Scope Z_scope.

Definition bit (x i : Z) : Z := (x / 2 ^ i) mod 2.
Lemma bit_range : forall x i, 0 <= bit x i <= 1.
Proof. intros. unfold bit. pose proof (Z.mod_pos_bound (x / 2 ^ i) 2). lia. Qed.

Fixpoint fmask (w : Z) (n : nat) : Z :=
  match n with O => 0 | S n' => 1 + 2 ^ w * fmask w n' end.
Fixpoint fields (w : Z) (n : nat) (g : nat -> Z) : Z :=
  match n with O => 0 | S n' => g O + 2 ^ w * fields w n' (fun f => g (S f)) end.

Lemma add_disjoint_lor : forall a b, Z.land a b = 0 -> a + b = Z.lor a b.
Proof. intros a b H. rewrite Z.add_nocarry_lxor by exact H. apply Z.lxor_lor. exact H. Qed.

Lemma low_high_disjoint : forall a b w, 0 <= w -> 0 <= a < 2 ^ w -> Z.land a (2 ^ w * b) = 0.
Proof.
  intros a b w Hw Ha. apply Z.bits_inj'. intros n Hn. rewrite Z.land_spec, Z.bits_0.
  destruct (Z.lt_ge_cases n w) as [L|L].
  - rewrite Z.mul_comm, Z.mul_pow2_bits_low by exact L. apply andb_false_r.
  - replace a with (a mod 2 ^ w) by (apply Z.mod_small; exact Ha).
    rewrite Z.mod_pow2_bits_high by lia. reflexivity.
Qed.

Lemma land_shiftl : forall x m w, 0 <= w -> Z.land x (2 ^ w * m) = 2 ^ w * Z.land (Z.shiftr x w) m.
Proof.
  intros x m w Hw. apply Z.bits_inj'. intros n Hn. rewrite Z.land_spec.
  rewrite (Z.mul_comm (2 ^ w) m), (Z.mul_comm (2 ^ w) (Z.land _ _)).
  destruct (Z.lt_ge_cases n w) as [L|L].
  - rewrite !Z.mul_pow2_bits_low by exact L. apply andb_false_r.
  - rewrite !Z.mul_pow2_bits by lia. rewrite Z.land_spec, Z.shiftr_spec by lia.
    replace (n - w + w) with n by lia. reflexivity.
Qed.

Lemma fields_ext : forall w n g g', (forall f, (f < n)%nat -> g f = g' f) -> fields w n g = fields w n g'.
Proof.
  intros w. induction n as [|n IH]; intros g g' H; cbn [fields]; auto.
  rewrite H by lia. f_equal. f_equal. apply IH. intros. apply H. lia.
Qed.

Lemma land_fmask : forall w n x, 1 <= w -> Z.land x (fmask w n) = fields w n (fun f => bit x (w * Z.of_nat f)).
Proof.
  intros w n. induction n as [|n IH]; intros x Hw; cbn [fmask fields]; [apply Z.land_0_r|].
  assert (H2 : 2 <= 2 ^ w) by (change 2 with (2 ^ 1) at 1; apply Z.pow_le_mono_r; lia).
  rewrite add_disjoint_lor by (apply low_high_disjoint; lia).
  rewrite Z.land_lor_distr_r, land_shiftl by lia.
  assert (L1 : Z.land x 1 = bit x 0).
  { change 1 with (2 ^ 1 - 1). rewrite land_mask_mod by lia. unfold bit. change (2 ^ 1) with 2.
    change (2 ^ 0) with 1. rewrite Z.div_1_r. reflexivity. }
  rewrite <- add_disjoint_lor.
  2: { apply low_high_disjoint; [lia|]. rewrite L1. pose proof (bit_range x 0). lia. }
  rewrite L1. change (w * Z.of_nat 0) with (w * 0). rewrite Z.mul_0_r. f_equal. f_equal.
  rewrite IH by exact Hw.
  assert (E : forall f, bit (Z.shiftr x w) (w * Z.of_nat f) = bit x (w * Z.of_nat (S f))).
  { intro f. unfold bit. rewrite Z.shiftr_div_pow2 by lia. rewrite Z.div_div by lia.
    rewrite <- Z.pow_add_r by lia. replace (w + w * Z.of_nat f) with (w * Z.of_nat (S f)) by lia.
    reflexivity. }
  apply fields_ext. intros f _. apply E.
Qed.

Lemma fields_add : forall w n g g', fields w n g + fields w n g' = fields w n (fun f => g f + g' f).
Proof.
  intros w. induction n as [|n IH]; intros g g'; cbn [fields]; [lia|]. rewrite <- IH. lia.
Qed.
Lemma fields_bound : forall w n g, 0 <= w -> (forall f, 0 <= g f < 2 ^ w) ->
  0 <= fields w n g < 2 ^ (w * Z.of_nat n).
Proof.
  intros w n. induction n as [|n IH]; intros g Hw H; cbn [fields].
  - change (Z.of_nat 0) with 0. rewrite Z.mul_0_r. cbn; lia.
  - specialize (IH (fun f => g (S f)) Hw (fun f => H (S f))). specialize (H O).
    replace (w * Z.of_nat (S n)) with (w + w * Z.of_nat n) by lia. rewrite Z.pow_add_r by lia. nia.
Qed.
Lemma fields_div : forall w f n g, 0 <= w -> (forall f, 0 <= g f < 2 ^ w) ->
  fields w (f + n) g / 2 ^ (w * Z.of_nat f) = fields w n (fun i => g (f + i)%nat).
Proof.
  intros w f. induction f as [|f IH]; intros n g Hw H.
  - change (Z.of_nat 0) with 0. rewrite Z.mul_0_r, Z.pow_0_r, Z.div_1_r. reflexivity.
  - cbn [plus fields]. assert (P : 0 < 2 ^ w) by (apply Z.pow_pos_nonneg; lia).
    replace (w * Z.of_nat (S f)) with (w + w * Z.of_nat f) by lia.
    rewrite Z.pow_add_r by lia. rewrite <- Z.div_div; [|lia|apply Z.pow_pos_nonneg; lia].
    rewrite (Z.mul_comm (2 ^ w)), Z.div_add by lia. rewrite (Z.div_small (g O)) by apply H.
    rewrite Z.add_0_l. apply (IH n (fun i => g (S i)) Hw). intro. apply H.
Qed.
Lemma field_get : forall w f n g, 0 <= w -> (forall f, 0 <= g f < 2 ^ w) ->
  (fields w (f + S n) g >> (w * Z.of_nat f)) .& (2 ^ w - 1) = g f.
Proof.
  intros w f n g Hw H. rewrite Z.shiftr_div_pow2 by lia. rewrite fields_div by assumption.
  rewrite land_mask_mod by exact Hw. cbn [fields]. rewrite Z.mul_comm, Z_mod_plus_full.
  rewrite Nat.add_0_r. apply Z.mod_small. apply H.
Qed.
Lemma field_last : forall w f g, 0 <= w -> (forall f, 0 <= g f < 2 ^ w) ->
  fields w (f + 1) g >> (w * Z.of_nat f) = g f.
Proof.
  intros w f g Hw H. rewrite Z.shiftr_div_pow2 by lia. rewrite fields_div by assumption.
  cbn [fields]. rewrite Nat.add_0_r. lia.
Qed.

(** The accumulated sum: field f counts the ones among bits w f .. w f + nb - 1. *)
Definition count (t : Z) (from : Z) (nb : nat) : Z :=
  sum_list (map (fun idx => bit t (from + Z.of_nat idx)) (seq 0 nb)).
Lemma count_range : forall t from nb, 0 <= count t from nb <= Z.of_nat nb.
Proof.
  intros t from nb. unfold count. rewrite <- (seq_length nb 0) at 3.
  induction (seq 0 nb) as [|i l IH]; cbn [map sum_list length]; [lia|].
  pose proof (bit_range t (from + Z.of_nat i)). lia.
Qed.

Lemma bit_shr : forall t i j, 0 <= i -> 0 <= j -> bit (t >> i) j = bit t (j + i).
Proof.
  intros t i j Hi Hj. unfold bit. rewrite Z.shiftr_div_pow2 by exact Hi.
  rewrite Z.div_div; [|apply Z.pow_nonzero; lia|apply Z.pow_pos_nonneg; lia].
  rewrite <- Z.pow_add_r by lia. rewrite (Z.add_comm i j). reflexivity.
Qed.

Lemma sum_list_app : forall a b, sum_list (a ++ b) = sum_list a + sum_list b.
Proof. induction a; intros; cbn; [lia|]. rewrite IHa. lia. Qed.

Lemma cbd_sum_spec : forall w n nb t, 1 <= w -> w * Z.of_nat n <= 64 -> Z.of_nat nb < 2 ^ w ->
  cbd_sum (fmask w n) nb t = fields w n (fun f => count t (w * Z.of_nat f) nb).
Proof.
  intros w n nb t Hw Hn Hnb. unfold cbd_sum.
  assert (G : forall m, (m <= nb)%nat ->
    fold_left (fun d idx => u64 (d + ((t >> Z.of_nat idx) .& fmask w n))) (seq 0 m) 0
    = fields w n (fun f => count t (w * Z.of_nat f) m)).
  { induction m as [|m IH]; intro Hm.
    - cbn [seq fold_left]. unfold count. cbn [seq map sum_list].
      clear. induction n as [|n IH]; cbn [fields]; [reflexivity|]. rewrite <- IH. lia.
    - rewrite seq_S, fold_left_app, IH by lia. cbn [fold_left plus].
      rewrite land_fmask by exact Hw. rewrite fields_add.
      rewrite (fields_ext w n _ (fun f => count t (w * Z.of_nat f) (S m))).
      + unfold u64. apply Z.mod_small.
        assert (B : 0 <= fields w n (fun f => count t (w * Z.of_nat f) (S m)) < 2 ^ (w * Z.of_nat n)).
        { apply fields_bound; [lia|]. intro f. pose proof (count_range t (w * Z.of_nat f) (S m)). lia. }
        assert (2 ^ (w * Z.of_nat n) <= 2 ^ 64) by (apply Z.pow_le_mono_r; lia).
        change (2 ^ 64) with 18446744073709551616 in *. lia.
      + intros f _. unfold count. rewrite seq_S, map_app, sum_list_app. cbn [plus map sum_list].
        rewrite bit_shr by lia. lia. }
  apply G. lia.
Qed.

(** Little-endian value. *)
Fixpoint le_val (b : bytes) : Z := match b with [] => 0 | x :: t => x + 256 * le_val t end.
Lemma le_val_bound : forall b, is_bytes b -> 0 <= le_val b < 2 ^ (8 * Z.of_nat (length b)).
Proof.
  induction b as [|x b IH]; intro H; cbn [le_val length].
  - cbn; lia.
  - inversion H; subst. specialize (IH H3). unfold is_byte in H2.
    replace (8 * Z.of_nat (S (length b))) with (8 + 8 * Z.of_nat (length b)) by lia.
    rewrite Z.pow_add_r by lia. change (2 ^ 8) with 256. nia.
Qed.
Lemma load_le_acc : forall b r i, is_bytes b -> 0 <= i -> 0 <= r < 2 ^ (8 * i) ->
  8 * (i + Z.of_nat (length b)) <= 64 ->
  fst (fold_left (fun '(r, idx) x => (r .| u64 (Z.shiftl x (8 * idx)), idx + 1)) b (r, i))
  = r + 2 ^ (8 * i) * le_val b.
Proof.
  induction b as [|x b IH]; intros r i Hb Hi Hr HL; cbn [fold_left le_val length] in *; [cbn; lia|].
  inversion Hb; subst. unfold is_byte in H1.
  assert (P : 0 < 2 ^ (8 * i)) by (apply Z.pow_pos_nonneg; lia).
  assert (E : u64 (Z.shiftl x (8 * i)) = 2 ^ (8 * i) * x).
  { rewrite Z.shiftl_mul_pow2 by lia. unfold u64. rewrite Z.mod_small; [lia|].
    assert (2 ^ (8 * i) * 2 ^ 8 <= 2 ^ 64) by (rewrite <- Z.pow_add_r by lia; apply Z.pow_le_mono_r; lia).
    change (2 ^ 8) with 256 in *. change (2 ^ 64) with 18446744073709551616 in *. nia. }
  rewrite E, <- add_disjoint_lor by (apply low_high_disjoint; lia).
  assert (Q : 2 ^ (8 * (i + 1)) = 2 ^ (8 * i) * 256).
  { replace (8 * (i + 1)) with (8 * i + 8) by lia. rewrite Z.pow_add_r by lia. reflexivity. }
  rewrite IH; auto; rewrite ?Q; try lia; nia.
Qed.
Lemma load_le : forall b, is_bytes b -> (length b <= 8)%nat -> load_littleendian b = le_val b.
Proof.
  intros b Hb HL. unfold load_littleendian. rewrite load_le_acc; auto; try lia; cbn; lia.
Qed.

Lemma bit_le_val : forall b i, is_bytes b -> 
  bit (le_val b) (Z.of_nat i) = bit (nth (i / 8) b 0) (Z.of_nat (i mod 8)).
Proof.
  induction b as [|x b IH]; intros i Hb.
  - cbn [le_val]. replace (nth (i / 8) [] 0) with 0 by (destruct (i / 8)%nat; reflexivity).
    unfold bit. rewrite !Zdiv_0_l. reflexivity.
  - inversion Hb; subst. unfold is_byte in H1. cbn [le_val].
    destruct (Nat.lt_ge_cases i 8) as [L|L].
    + rewrite Nat.div_small, Nat.mod_small by exact L. cbn [nth]. unfold bit.
      replace (256 * le_val b) with ((2 ^ (8 - Z.of_nat i - 1) * le_val b * 2) * 2 ^ Z.of_nat i).
      2: { assert (Hp : 2 ^ (8 - Z.of_nat i - 1) * 2 * 2 ^ Z.of_nat i = 256).
           { replace (2 ^ (8 - Z.of_nat i - 1) * 2) with (2 ^ (8 - Z.of_nat i)).
             - rewrite <- Z.pow_add_r by lia. replace (8 - Z.of_nat i + Z.of_nat i) with 8 by lia. reflexivity.
             - replace (8 - Z.of_nat i) with (Z.succ (8 - Z.of_nat i - 1)) at 1 by lia.
               rewrite Z.pow_succ_r by lia. lia. }
           rewrite <- Hp. lia. }
      rewrite Z.div_add by (apply Z.pow_nonzero; lia).
      rewrite Z_mod_plus_full. reflexivity.
    + assert (Ei : i = ((i - 8) + 1 * 8)%nat) by lia.
      rewrite Ei at 2 3. rewrite Nat.div_add, Nat.mod_add, Nat.add_1_r by lia. cbn [nth].
      rewrite <- IH by assumption. unfold bit.
      replace (2 ^ Z.of_nat i) with (256 * 2 ^ Z.of_nat (i - 8)).
      2: { change 256 with (2 ^ 8). rewrite <- Z.pow_add_r by lia. f_equal. lia. }
      rewrite <- Z.div_div by (try lia; apply Z.pow_pos_nonneg; lia).
      rewrite (Z.mul_comm 256), Z.div_add by lia. rewrite (Z.div_small x) by exact H1. reflexivity.
Qed.

(** ** One block *)
Definition halfmu (I : saber_impl) : nat := (sMU I / 2)%nat.

Lemma u16_small : forall x, 0 <= x < 65536 -> u16 x = x.
Proof. intros. apply Z.mod_small. assumption. Qed.
Lemma signed16_sub : forall a b, 0 <= a < 100 -> 0 <= b < 100 -> signed16 (u16 (u16 a - u16 b)) = a - b.
Proof.
  intros a b Ha Hb. rewrite !(u16_small a), !(u16_small b) by lia. unfold signed16, u16.
  destruct (Z.lt_ge_cases (a - b) 0) as [L|L].
  - replace (a - b) with ((a - b + 65536) + (-1) * 65536) by lia. rewrite Z_mod_plus_full.
    rewrite Z.mod_small by lia. destruct (Z.ltb_spec (a - b + 65536) 32768); lia.
  - rewrite Z.mod_small by lia. destruct (Z.ltb_spec (a - b) 32768); lia.
Qed.

Lemma cbd_block_spec : forall I buf q, param_set I -> length buf = cbd_block I -> is_bytes buf ->
  (q < 4)%nat ->
  signed16 (nth q (cbd_coeffs I buf) 0) =
  count (le_val buf) (Z.of_nat (sMU I * q)) (halfmu I) -
  count (le_val buf) (Z.of_nat (sMU I * q + halfmu I)) (halfmu I).
Proof.
  intros I buf q HI HL Hb Hq.
  assert (Hlt : load_littleendian buf = le_val buf) by (apply load_le; auto; rewrite HL; destruct HI; cbn; lia).
  destruct HI; cbn [cbd_coeffs cbd_block LightSaber Saber FireSaber sMU halfmu] in *.
  - unfold cbd_light. rewrite Hlt, HL. set (t := le_val buf).
    change 35468117025 with (fmask 5 8).
    rewrite (cbd_sum_spec 5 8 5 t) by (cbn; lia).
    set (g := fun f => count t (5 * Z.of_nat f) 5).
    assert (Hg : forall f, 0 <= g f < 2 ^ 5).
    { intro f. unfold g. pose proof (count_range t (5 * Z.of_nat f) 5). change (2 ^ 5) with 32. lia. }
    assert (Hg' : forall f, 0 <= g f < 100) by (intro f; specialize (Hg f); change (2 ^ 5) with 32 in Hg; lia).
    change 31 with (2 ^ 5 - 1).
    pose proof (field_get 5 0 7 g ltac:(lia) Hg) as G0. 
    pose proof (field_get 5 1 6 g ltac:(lia) Hg) as G1. pose proof (field_get 5 2 5 g ltac:(lia) Hg) as G2.
    pose proof (field_get 5 3 4 g ltac:(lia) Hg) as G3. pose proof (field_get 5 4 3 g ltac:(lia) Hg) as G4.
    pose proof (field_get 5 5 2 g ltac:(lia) Hg) as G5. pose proof (field_get 5 6 1 g ltac:(lia) Hg) as G6.
    pose proof (field_last 5 7 g ltac:(lia) Hg) as G7.
    cbn [plus] in G0, G1, G2, G3, G4, G5, G6, G7.
    change (5 * Z.of_nat 0) with 0 in G0. rewrite Z.shiftr_0_r in G0.
    change (5 * Z.of_nat 1) with 5 in G1. change (5 * Z.of_nat 2) with 10 in G2.
    change (5 * Z.of_nat 3) with 15 in G3. change (5 * Z.of_nat 4) with 20 in G4.
    change (5 * Z.of_nat 5) with 25 in G5. change (5 * Z.of_nat 6) with 30 in G6.
    change (5 * Z.of_nat 7) with 35 in G7.
    rewrite G0, G1, G2, G3, G4, G5, G6, G7.
    destruct q as [|[|[|[|q]]]]; [| | | |lia]; cbn [nth]; rewrite signed16_sub by apply Hg'; reflexivity.
  - unfold cbd_saber. rewrite Hlt, HL. set (t := le_val buf).
    change 286331153 with (fmask 4 8).
    rewrite (cbd_sum_spec 4 8 4 t) by (cbn; lia).
    set (g := fun f => count t (4 * Z.of_nat f) 4).
    assert (Hg : forall f, 0 <= g f < 2 ^ 4).
    { intro f. unfold g. pose proof (count_range t (4 * Z.of_nat f) 4). change (2 ^ 4) with 16. lia. }
    assert (Hg' : forall f, 0 <= g f < 100) by (intro f; specialize (Hg f); change (2 ^ 4) with 16 in Hg; lia).
    change 15 with (2 ^ 4 - 1).
    pose proof (field_get 4 0 7 g ltac:(lia) Hg) as G0. 
    pose proof (field_get 4 1 6 g ltac:(lia) Hg) as G1. pose proof (field_get 4 2 5 g ltac:(lia) Hg) as G2.
    pose proof (field_get 4 3 4 g ltac:(lia) Hg) as G3. pose proof (field_get 4 4 3 g ltac:(lia) Hg) as G4.
    pose proof (field_get 4 5 2 g ltac:(lia) Hg) as G5. pose proof (field_get 4 6 1 g ltac:(lia) Hg) as G6.
    pose proof (field_last 4 7 g ltac:(lia) Hg) as G7.
    cbn [plus] in G0, G1, G2, G3, G4, G5, G6, G7.
    change (4 * Z.of_nat 0) with 0 in G0. rewrite Z.shiftr_0_r in G0.
    change (4 * Z.of_nat 1) with 4 in G1. change (4 * Z.of_nat 2) with 8 in G2.
    change (4 * Z.of_nat 3) with 12 in G3. change (4 * Z.of_nat 4) with 16 in G4.
    change (4 * Z.of_nat 5) with 20 in G5. change (4 * Z.of_nat 6) with 24 in G6.
    change (4 * Z.of_nat 7) with 28 in G7.
    rewrite G0, G1, G2, G3, G4, G5, G6, G7.
    destruct q as [|[|[|[|q]]]]; [| | | |lia]; cbn [nth]; rewrite signed16_sub by apply Hg'; reflexivity.
  - unfold cbd_fire. rewrite Hlt, HL. set (t := le_val buf).
    change 2396745 with (fmask 3 8).
    rewrite (cbd_sum_spec 3 8 3 t) by (cbn; lia).
    set (g := fun f => count t (3 * Z.of_nat f) 3).
    assert (Hg : forall f, 0 <= g f < 2 ^ 3).
    { intro f. unfold g. pose proof (count_range t (3 * Z.of_nat f) 3). change (2 ^ 3) with 8. lia. }
    assert (Hg' : forall f, 0 <= g f < 100) by (intro f; specialize (Hg f); change (2 ^ 3) with 8 in Hg; lia).
    change 7 with (2 ^ 3 - 1).
    pose proof (field_get 3 0 7 g ltac:(lia) Hg) as G0. 
    pose proof (field_get 3 1 6 g ltac:(lia) Hg) as G1. pose proof (field_get 3 2 5 g ltac:(lia) Hg) as G2.
    pose proof (field_get 3 3 4 g ltac:(lia) Hg) as G3. pose proof (field_get 3 4 3 g ltac:(lia) Hg) as G4.
    pose proof (field_get 3 5 2 g ltac:(lia) Hg) as G5. pose proof (field_get 3 6 1 g ltac:(lia) Hg) as G6.
    pose proof (field_get 3 7 0 g ltac:(lia) Hg) as G7.
    cbn [plus] in G0, G1, G2, G3, G4, G5, G6, G7.
    change (3 * Z.of_nat 0) with 0 in G0. rewrite Z.shiftr_0_r in G0.
    change (3 * Z.of_nat 1) with 3 in G1. change (3 * Z.of_nat 2) with 6 in G2.
    change (3 * Z.of_nat 3) with 9 in G3. change (3 * Z.of_nat 4) with 12 in G4.
    change (3 * Z.of_nat 5) with 15 in G5. change (3 * Z.of_nat 6) with 18 in G6.
    change (3 * Z.of_nat 7) with 21 in G7.
    rewrite G0, G1, G2, G3, G4, G5, G6, G7.
    destruct q as [|[|[|[|q]]]]; [| | | |lia]; cbn [nth]; rewrite signed16_sub by apply Hg'; reflexivity.
Qed.

(** ** The stream *)
Lemma read_many_draw : forall k n x y off, (forall j, x j = y (off + j)%nat) ->
  fst (read_many k (draw n) x) =
    map (fun i => map (fun j => u8 (y (off + n * i + j)%nat)) (seq 0 n)) (seq 0 k) /\
  (forall j, snd (read_many k (draw n) x) j = y (off + n * k + j)%nat).
Proof.
  induction k as [|k IH]; intros n x y off H; cbn [read_many].
  - split; [reflexivity|]. intro j. cbn [snd]. rewrite H. f_equal. lia.
  - unfold draw at 1 3. cbn [seq map].
    destruct (IH n (fun i => x (n + i)%nat) y (off + n)%nat) as [F S].
    { intro j. rewrite H. f_equal. lia. }
    fold (@draw n). destruct (read_many k (draw n) (fun i => x (n + i)%nat)) as [l x2].
    cbn [fst snd] in *. split.
    + f_equal.
      * apply map_ext. intro j. rewrite H. f_equal. f_equal. lia.
      * rewrite F. rewrite <- seq_shift, map_map. apply map_ext. intro i. apply map_ext. intro j.
        f_equal. f_equal. lia.
    + intro j. rewrite S. f_equal. lia.
Qed.
Lemma nth_flat_map_const : forall {A B} (g : A -> list B) n l i q d d', 
  (forall x, length (g x) = n) -> (i < length l)%nat -> (q < n)%nat ->
  nth (n * i + q) (flat_map g l) d = nth q (g (nth i l d')) d.
Proof.
  intros A B g n l. induction l as [|a l IH]; intros i q d d' H Hi Hq; [cbn in Hi; lia|].
  cbn [flat_map]. destruct i as [|i].
  - rewrite Nat.mul_0_r. cbn [plus nth]. apply app_nth1. rewrite H. exact Hq.
  - rewrite app_nth2 by (rewrite H; lia). rewrite H.
    replace (n * S i + q - n)%nat with (n * i + q)%nat by lia. cbn [nth length] in *.
    apply IH; auto. lia.
Qed.

Lemma block_bytes : forall (y : nat -> Z) base n,
  is_bytes (map (fun j => u8 (y (base + j)%nat)) (seq 0 n)).
Proof.
  intros. apply Forall_forall. intros v Hv. apply in_map_iff in Hv. destruct Hv as [j [<- _]].
  apply u8_range.
Qed.

Lemma count_stream : forall (y : nat -> Z) base n from nb,
  (from + nb <= 8 * n)%nat ->
  count (le_val (map (fun j => u8 (y (base + j)%nat)) (seq 0 n))) (Z.of_nat from) nb
  = ones y (8 * base + from) nb.
Proof.
  intros y base n from nb H. unfold count, ones. f_equal. apply map_ext_in. intros i Hi.
  apply in_seq in Hi. rewrite <- Nat2Z.inj_add. rewrite bit_le_val by apply block_bytes.
  assert (L : ((from + i) / 8 < n)%nat) by (apply Nat.div_lt_upper_bound; lia).
  rewrite (nth_map_in _ (seq 0 n) ((from + i) / 8) 0 0%nat) by (rewrite seq_length; exact L).
  rewrite seq_nth by exact L. cbn [plus]. unfold stream_bit, bit, u8.
  replace (8 * base + from + i)%nat with ((from + i) + base * 8)%nat by lia.
  rewrite Nat.div_add, Nat.mod_add by lia. rewrite (Nat.add_comm base). reflexivity.
Qed.

Lemma cbd_stream : forall I x y off c, param_set I -> (forall j, x j = y (off + j)%nat) ->
  (c < 256)%nat ->
  signed16 (nth c (fst (cbd I x)) 0) =
    ones y (8 * off + sMU I * c) (halfmu I) - ones y (8 * off + sMU I * c + halfmu I) (halfmu I) /\
  (forall j, snd (cbd I x) j = y (off + cbd_block I * 64 + j)%nat).
Proof.
  intros I x y off c HI H Hc. unfold cbd. change (DEG / 4)%nat with 64%nat.
  destruct (read_many_draw 64 (cbd_block I) x y off H) as [F S].
  destruct (read_many 64 (draw (cbd_block I)) x) as [bs x'] eqn:R. cbn [fst snd] in *.
  split; [|exact S].
  assert (Dc : c = (4 * (c / 4) + c mod 4)%nat) by (apply Nat.div_mod; lia).
  assert (Lc : (c mod 4 < 4)%nat) by (apply Nat.mod_upper_bound; lia).
  assert (Li : (c / 4 < 64)%nat) by (apply Nat.div_lt_upper_bound; lia).
  set (i := (c / 4)%nat) in *. set (q := (c mod 4)%nat) in *.
  rewrite Dc at 1.
  rewrite (nth_flat_map_const (cbd_coeffs I) 4 bs i q 0 []).
  2: { intro b. apply cbd_coeffs_wf. exact HI. }
  2: { rewrite F, map_length, seq_length. exact Li. }
  2: exact Lc.
  rewrite F. rewrite (nth_map_in _ (seq 0 64) i [] 0%nat) by (rewrite seq_length; exact Li).
  rewrite seq_nth by exact Li. cbn [plus].
  rewrite cbd_block_spec; [|exact HI|rewrite map_length, seq_length; reflexivity|apply block_bytes|exact Lc].
  assert (B8 : (8 * cbd_block I = 4 * sMU I)%nat) by (destruct HI; reflexivity).
  assert (HM : (halfmu I + halfmu I = sMU I)%nat) by (destruct HI; reflexivity).
  rewrite !count_stream by nia. rewrite Dc.
  f_equal; f_equal; nia.
Qed.

Lemma gen_secret_aux : forall I k x y off p c, param_set I -> (forall j, x j = y (off + j)%nat) ->
  (p < k)%nat -> (c < 256)%nat ->
  signed16 (nth c (nth p (fst (read_many k (cbd I) x)) []) 0) =
    ones y (8 * (off + cbd_block I * 64 * p) + sMU I * c) (halfmu I)
    - ones y (8 * (off + cbd_block I * 64 * p) + sMU I * c + halfmu I) (halfmu I).
Proof.
  intros I k. induction k as [|k IH]; intros x y off p c HI H Hp Hc; [lia|]. cbn [read_many].
  destruct (cbd_stream I x y off c HI H Hc) as [F S]. destruct (cbd I x) as [a x1]. cbn [fst snd] in *.
  specialize (IH x1 y (off + cbd_block I * 64)%nat).
  destruct (read_many k (cbd I) x1) as [l x2]. cbn [fst] in *. destruct p as [|p]; cbn [nth].
  - rewrite F. f_equal; f_equal; lia.
  - rewrite (IH p c HI S) by lia. f_equal; f_equal; lia.
Qed.

Lemma gen_secret_spec : forall h I seed p c, param_set I -> (p < sK I)%nat -> (c < 256)%nat ->
  signed16 (nth c (nth p (gen_secret h I seed) []) 0)
  = binomial_sample (shake128 h seed) (sMU I) (256 * p + c).
Proof.
  intros h I seed p c HI Hp Hc. unfold gen_secret.
  rewrite (gen_secret_aux I (sK I) (shake128 h seed) (shake128 h seed) 0 p c HI); auto.
  unfold binomial_sample. fold (halfmu I).
  assert (B8 : (8 * cbd_block I = 4 * sMU I)%nat) by (destruct HI; reflexivity).
  f_equal; f_equal; nia.
Qed.
