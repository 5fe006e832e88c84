(** * AvxBytesOk: the byte shuffles compute what the reference computes. *)
From Coq Require Import ZArith List Lia Bool.
From Verif Require Import Base Bits SaberPoly SaberRing DilArith DilNtt DilPoly DilPack DilOps DilHint KeccakProps AvxPoly AvxBytes.
Import ListNotations.
Open Scope Z_scope.

(** ** Memory *)
Lemma patch_ok : forall {A} (b : list A) off src, (off + length src <= length b)%nat ->
  patch b off src = CRet (firstn off b ++ src ++ skipn (off + length src) b).
Proof. intros A b off src H. unfold patch. apply Nat.leb_le in H. rewrite H. reflexivity. Qed.
Lemma patch_length : forall {A} (b : list A) off src b', patch b off src = CRet b' -> length b' = length b.
Proof.
  intros A b off src b' H. unfold patch in H. destruct (Nat.leb_spec (off + length src) (length b)); [|discriminate H].
  injection H as <-. rewrite !app_length, firstn_length, skipn_length. lia.
Qed.
(** A copy behind a filled prefix extends the prefix. *)
Lemma patch_prefix : forall {A} (b : list A) off src k, (off + length src <= length b)%nat -> (k <= length src)%nat ->
  exists b', patch b off src = CRet b' /\ length b' = length b /\ firstn (off + k) b' = firstn off b ++ firstn k src.
Proof.
  intros A b off src k H Hk. eexists. split; [apply patch_ok; exact H|]. split; [rewrite !app_length, firstn_length, skipn_length; lia|].
  assert (L : length (firstn off b) = off) by (rewrite firstn_length; lia).
  rewrite firstn_app, L. rewrite firstn_all2 by lia. f_equal. replace (off + k - off)%nat with k by lia.
  rewrite firstn_app. replace (k - length src)%nat with 0%nat by lia. cbn [firstn]. apply app_nil_r.
Qed.

(** ** The compaction table *)
Definition bmask (l : list bool) : nat := fold_right (fun (b : bool) m => ((if b then 1 else 0) + 2 * m)%nat) 0%nat l.
Lemma movemask_bmask : forall l, movemask l = bmask (map (fun x => x <? 0) l).
Proof. induction l as [|x l IH]; [reflexivity|]. cbn [movemask bmask fold_right map] in *. fold (movemask l). rewrite IH. reflexivity. Qed.
Definition chosen (l : list bool) : list nat := filter (fun j => nth j l false) (seq 0 8).
Definition check3 (row : list Z) (pc : nat) (ch : list nat) : bool :=
  Nat.eqb pc (length ch) && Nat.eqb (length row) 8 && forallb (fun x => (0 <=? x) && (x <? 8)) row &&
  (if list_eq_dec Z.eq_dec (firstn pc row) (map Z.of_nat ch) then true else false).
Lemma check3_ok : forall row pc ch, check3 row pc ch = true ->
  pc = length ch /\ length row = 8%nat /\ Forall (fun x => 0 <= x < 8) row /\ firstn pc row = map Z.of_nat ch.
Proof.
  intros row pc ch C. unfold check3 in C.
  apply andb_true_iff in C. destruct C as [C C4]. apply andb_true_iff in C. destruct C as [C C3]. apply andb_true_iff in C. destruct C as [C1 C2].
  apply Nat.eqb_eq in C1, C2. split; [exact C1|]. split; [exact C2|]. split.
  - apply Forall_forall. intros x Hx. rewrite forallb_forall in C3. specialize (C3 x Hx). apply andb_true_iff in C3.
    rewrite Z.leb_le, Z.ltb_lt in C3. exact C3.
  - destruct (list_eq_dec _ _ _) as [E|]; [exact E|discriminate C4].
Qed.
Definition lut_check (l : list bool) : bool := check3 (nth (bmask l) idxlut []) (popcnt (bmask l)) (chosen l).
Lemma lut_check_ok : forall b0 b1 b2 b3 b4 b5 b6 b7, lut_check [b0; b1; b2; b3; b4; b5; b6; b7] = true.
Proof. intros b0 b1 b2 b3 b4 b5 b6 b7. destruct b0, b1, b2, b3, b4, b5, b6, b7; vm_compute; reflexivity. Qed.
Local Opaque check3 idxlut popcnt bmask chosen nth.
Lemma lut_ok : forall l, length l = 8%nat ->
  popcnt (bmask l) = length (chosen l) /\ length (nth (bmask l) idxlut []) = 8%nat /\ Forall (fun x => 0 <= x < 8) (nth (bmask l) idxlut []) /\
  firstn (popcnt (bmask l)) (nth (bmask l) idxlut []) = map Z.of_nat (chosen l).
Proof.
  intros l L. apply check3_ok. destruct l as [|b0 [|b1 [|b2 [|b3 [|b4 [|b5 [|b6 [|b7 [|? ?]]]]]]]]]; try discriminate L.
  pose proof (lut_check_ok b0 b1 b2 b3 b4 b5 b6 b7) as C. unfold lut_check in C. exact C.
Qed.
Local Transparent nth chosen check3.
Local Opaque idxlut popcnt bmask.
Lemma chosen_le : forall l, (length (chosen l) <= 8)%nat.
Proof.
  intro l. unfold chosen. assert (G : forall (f : nat -> bool) k, (length (filter f k) <= length k)%nat).
  { intros f k. induction k as [|x k IH]; cbn; [lia|]. destruct (f x); cbn; lia. } apply (G _ (seq 0 8)).
Qed.

(** ** Little-endian bytes *)
Lemma le_bytes_le : forall l, Forall (fun b => 0 <= b < 256) l -> le_bytes (length l) (le l) = l.
Proof.
  intros l F. induction F as [|b l Hb F IH]; [reflexivity|]. cbn [length le_bytes le fold_right]. fold (le l).
  rewrite (Z.mul_comm 256), Z.mod_add, Z.mod_small by lia. rewrite Z.div_add, Z.div_small by lia. rewrite Z.add_0_l, IH. reflexivity.
Qed.
Lemma le_bound : forall l, Forall (fun b => 0 <= b < 256) l -> 0 <= le l < 256 ^ Z.of_nat (length l).
Proof.
  intros l F. induction F as [|b l Hb F IH]; [cbn; lia|]. cbn [length le fold_right]. fold (le l).
  rewrite Nat2Z.inj_succ, Z.pow_succ_r by lia. lia.
Qed.
Lemma le_add_const : forall l c, le (map (fun b => b + c) l) = le l + c * le (repeat 1 (length l)).
Proof.
  induction l as [|b l IH]; intro c; cbn [map le fold_right length repeat]; [lia|].
  fold (le (map (fun b => b + c) l)). fold (le l). fold (le (repeat 1 (length l))). rewrite IH. lia.
Qed.

(** ** rounding.c: the hint positions *)
Lemma map2_length : forall {A B C} (f : A -> B -> C) a b, length (map2 f a b) = Nat.min (length a) (length b).
Proof. intros A B C f. induction a as [|x a IH]; intros [|y b]; cbn; auto. Qed.
Lemma filter_seq_shift_from : forall (P : nat -> bool) k n s, filter P (seq (k + s) n) = map (fun j => (k + j)%nat) (filter (fun j => P (k + j)%nat) (seq s n)).
Proof.
  intros P k n. induction n as [|n IH]; intro s; [reflexivity|].
  cbn [seq filter]. rewrite <- Nat.add_succ_r. rewrite IH. destruct (P (k + s)%nat); reflexivity.
Qed.
Lemma filter_seq_shift : forall (P : nat -> bool) k n, filter P (seq k n) = map (fun j => (k + j)%nat) (filter (fun j => P (k + j)%nat) (seq 0 n)).
Proof. intros P k n. rewrite <- filter_seq_shift_from. rewrite Nat.add_0_r. reflexivity. Qed.
Lemma nth_skipn : forall {A} (l : list A) n i d, nth i (skipn n l) d = nth (n + i) l d.
Proof. intros A l n. revert l. induction n as [|n IH]; intros [|x l] i d; cbn [skipn nth Nat.add]; try reflexivity; [destruct i; reflexivity|apply IH]. Qed.
Lemma vec_of_at : forall a i j, length a = 256%nat -> (i < 32)%nat -> (j < 8)%nat -> at_ (vec_of a i) j = at_ a (8 * i + j).
Proof. intros a i j L Hi Hj. unfold vec_of, at_. rewrite nth_firstn_lt by exact Hj. rewrite nth_skipn. reflexivity. Qed.
Lemma vec_of_length : forall a i, length a = 256%nat -> (i < 32)%nat -> length (vec_of a i) = 8%nat.
Proof. intros a i L Hi. unfold vec_of. rewrite firstn_length, skipn_length. lia. Qed.

Lemma row_shift : forall row i, length row = 8%nat -> Forall (fun x => 0 <= x < 8) row -> (i < 32)%nat ->
  le_bytes 8 ((le row + 578721382704613384 * Z.of_nat i) mod 18446744073709551616) = map (fun x => x + 8 * Z.of_nat i) row.
Proof.
  intros row i L F Hi.
  assert (E : le row + 578721382704613384 * Z.of_nat i = le (map (fun x => x + 8 * Z.of_nat i) row)).
  { rewrite le_add_const, L. change (le (repeat 1 8)) with 72340172838076673. lia. }
  assert (F' : Forall (fun b => 0 <= b < 256) (map (fun x => x + 8 * Z.of_nat i) row)).
  { apply Forall_map. eapply Forall_impl; [|exact F]. cbv beta. intros x Hx. lia. }
  pose proof (le_bound _ F') as B. rewrite map_length, L in B. change (256 ^ Z.of_nat 8) with 18446744073709551616 in B.
  rewrite E, Z.mod_small by exact B. replace 8%nat with (length (map (fun x => x + 8 * Z.of_nat i) row)) at 1 by (rewrite map_length; exact L).
  apply le_bytes_le. exact F'.
Qed.
Section Hint.
Variables a0 a1 : poly.
Hypothesis L0 : length a0 = 256%nat.
Hypothesis L1 : length a1 = 256%nat.
Hypothesis B0 : forall p, (p < 256)%nat -> -2147483648 < at_ a0 p < 2147483648.
Hypothesis B1 : forall p, (p < 256)%nat -> 0 <= at_ a1 p.
Let hit (j : nat) : bool := negb (make_hint (at_ a0 j) (at_ a1 j) =? 0).
Lemma hint_lanes : forall i, (i < 32)%nat ->
  map (fun x => x <? 0) (map2 hint_lane (vec_of a0 i) (vec_of a1 i)) = map (fun j => hit (8 * i + j)) (seq 0 8).
Proof.
  intros i Hi. apply nth_ext with (d := false) (d' := hit (8 * i)).
  - rewrite !map_length, seq_length. rewrite map2_length. rewrite !vec_of_length by assumption. reflexivity.
  - intros n Hn. rewrite map_length, map2_length, !vec_of_length in Hn by assumption. change (Nat.min 8 8) with 8%nat in Hn.
    rewrite (nth_indep _ false (hint_lane 0 0 <? 0)) by (rewrite map_length, map2_length, !vec_of_length by assumption; exact Hn).
    rewrite (map_nth (fun x => x <? 0)).
    assert (Em : nth n (map2 hint_lane (vec_of a0 i) (vec_of a1 i)) (hint_lane 0 0) = hint_lane (at_ (vec_of a0 i) n) (at_ (vec_of a1 i) n)).
    { clear - Hn L0 L1 Hi. pose proof (vec_of_length a0 i L0 Hi) as E0. pose proof (vec_of_length a1 i L1 Hi) as E1.
      revert n Hn E0 E1. generalize (vec_of a0 i) (vec_of a1 i). clear. intros u v n Hn E0 E1. assert (E : length u = length v) by congruence.
      assert (Hn' : (n < length u)%nat) by lia. clear E0 E1 Hn. revert v E n Hn'. induction u as [|x u IH]; intros [|y v] E n Hn; try discriminate E; [cbn in Hn; lia|].
      destruct n as [|n]; [reflexivity|]. cbn [map2 nth]. rewrite (IH v) by (cbn in E, Hn; lia). reflexivity. }
    rewrite Em, !vec_of_at by assumption. rewrite hint_lane_ok by (try apply B0; try apply B1; lia).
    rewrite (nth_indep _ (hit (8 * i)) (hit (8 * i + 0))) by (rewrite map_length, seq_length; exact Hn).
    rewrite (map_nth (fun j => hit (8 * i + j))), seq_nth by exact Hn. reflexivity.
Qed.
Lemma hint_step_ok : forall i hint n, (i < 32)%nat -> length hint = 256%nat -> n = length (filter hit (seq 0 (8 * i))) ->
  firstn n hint = map Z.of_nat (filter hit (seq 0 (8 * i))) ->
  exists hint' n', hint_step a0 a1 (hint, n) i = CRet (hint', n') /\ length hint' = 256%nat /\
    n' = length (filter hit (seq 0 (8 * S i))) /\ firstn n' hint' = map Z.of_nat (filter hit (seq 0 (8 * S i))).
Proof.
  intros i hint n Hi L Hn Hf. unfold hint_step. cbv zeta. rewrite movemask_bmask, hint_lanes by exact Hi.
  set (bs := map (fun j => hit (8 * i + j)) (seq 0 8)).
  destruct (lut_ok bs) as (P & R & F & E); [unfold bs; rewrite map_length, seq_length; reflexivity|].
  rewrite row_shift by assumption. set (row := nth (bmask bs) idxlut []) in *.
  assert (C : chosen bs = filter (fun j => hit (8 * i + j)) (seq 0 8)).
  { unfold chosen, bs. apply filter_ext_in. intros j Hj. apply in_seq in Hj. rewrite (nth_indep _ false (hit (8 * i + 0))) by (rewrite map_length, seq_length; lia).
    rewrite (map_nth (fun j => hit (8 * i + j))), seq_nth by lia. reflexivity. }
  assert (LE : (n <= 8 * i)%nat).
  { rewrite Hn. assert (G : forall (f : nat -> bool) k, (length (filter f k) <= length k)%nat).
    { intros f k. induction k as [|x k IH]; cbn; [lia|]. destruct (f x); cbn; lia. } etransitivity; [apply G|]. rewrite seq_length. lia. }
  destruct (patch_prefix hint n (map (fun x => x + 8 * Z.of_nat i) row) (popcnt (bmask bs))) as (h' & E1 & E2 & E3).
  { rewrite map_length, R. lia. } { rewrite map_length, R, P. apply chosen_le. }
  rewrite E1. cbn [cbind]. eexists. eexists. split; [reflexivity|]. split; [congruence|].
  replace (8 * S i)%nat with (8 * i + 8)%nat by lia. rewrite seq_app, filter_app, Nat.add_0_l, (filter_seq_shift hit (8 * i) 8).
  rewrite P, C. split; [rewrite app_length, map_length; lia|]. rewrite P, C in E3. rewrite E3, Hf, map_app. f_equal.
  rewrite firstn_map. rewrite <- C, <- P, E, !map_map, C. apply map_ext. intro j. lia.
Qed.
Theorem make_hint_avx_ok : forall hint, length hint = 256%nat ->
  exists hint' n, make_hint_avx hint a0 a1 = CRet (hint', n) /\ length hint' = 256%nat /\
    n = length (positions (map2 make_hint a0 a1)) /\ firstn n hint' = map Z.of_nat (positions (map2 make_hint a0 a1)).
Proof.
  intros hint L.
  assert (G : forall k i h n, (i + k = 32)%nat -> length h = 256%nat -> n = length (filter hit (seq 0 (8 * i))) ->
    firstn n h = map Z.of_nat (filter hit (seq 0 (8 * i))) ->
    exists h' n', foldM (hint_step a0 a1) (seq i k) (h, n) = CRet (h', n') /\ length h' = 256%nat /\
      n' = length (filter hit (seq 0 256)) /\ firstn n' h' = map Z.of_nat (filter hit (seq 0 256))).
  { induction k as [|k IH]; intros i h n Hi Lh Hn Hf.
    - replace i with 32%nat in * by lia. change (8 * 32)%nat with 256%nat in *. exists h, n. cbn [seq foldM]. auto.
    - cbn [seq]. rewrite foldM_cons. destruct (hint_step_ok i h n) as (h' & n' & E & P1 & P2 & P3); try assumption; [lia|].
      rewrite E. cbn [cbind]. apply IH; try assumption. lia. }
  destruct (G 32%nat 0%nat hint 0%nat) as (h' & n' & E & P1 & P2 & P3); [lia|exact L|reflexivity|reflexivity|].
  exists h', n'. split; [exact E|]. split; [exact P1|].
  assert (C : positions (map2 make_hint a0 a1) = filter hit (seq 0 256)).
  { unfold positions. apply filter_ext_in. intros j Hj. apply in_seq in Hj. unfold hit. f_equal. f_equal.
    clear - Hj L0 L1. assert (E : length a0 = length a1) by congruence. assert (H : (j < length a0)%nat) by lia. clear Hj L0 L1.
    revert a1 j E H. induction a0 as [|x u IH]; intros [|y v] j E H; try discriminate E; [cbn in H; lia|].
    destruct j as [|j]; [reflexivity|]. specialize (IH v j). unfold at_ in *. cbn [map2 nth] in *. apply IH; [cbn in E; lia|cbn in H; lia]. }
  rewrite C. auto.
Qed.
End Hint.

(** ** rejsample.c: rejection sampling *)
Definition cand3 (b0 b1 b2 : Z) : Z := Z.land (Z.lor (Z.lor b0 (Z.shiftl b1 8)) (Z.shiftl b2 16)) 8388607.
Definition ltq (x : Z) : bool := x <? Q.
Lemma cand3_range : forall b0 b1 b2, 0 <= cand3 b0 b1 b2 < 8388608.
Proof.
  intros. unfold cand3. change 8388607 with (Z.ones 23). rewrite Z.land_ones by lia. apply Z.mod_pos_bound. lia.
Qed.
Lemma list32 : forall (b : bytes), length b = 32%nat -> exists b0 b1 b2 b3 b4 b5 b6 b7 b8 b9 b10 b11 b12 b13 b14 b15 b16 b17 b18 b19 b20 b21 b22 b23 b24 b25 b26 b27 b28 b29 b30 b31,
  b = [b0; b1; b2; b3; b4; b5; b6; b7; b8; b9; b10; b11; b12; b13; b14; b15; b16; b17; b18; b19; b20; b21; b22; b23; b24; b25; b26; b27; b28; b29; b30; b31].
Proof.
  intros b L. do 32 (destruct b as [|? b]; [discriminate L|]). destruct b; [|discriminate L]. do 32 eexists. reflexivity.
Qed.
Lemma rej_shuffle : forall b0 b1 b2 b3 b4 b5 b6 b7 b8 b9 b10 b11 b12 b13 b14 b15 b16 b17 b18 b19 b20 b21 b22 b23 b24 b25 b26 b27 b28 b29 b30 b31,
  shuffle_epi8 (permute4x64 [b0; b1; b2; b3; b4; b5; b6; b7; b8; b9; b10; b11; b12; b13; b14; b15; b16; b17; b18; b19; b20; b21; b22; b23; b24; b25; b26; b27; b28; b29; b30; b31] 148) rej_idx8 =
  [b0; b1; b2; 0; b3; b4; b5; 0; b6; b7; b8; 0; b9; b10; b11; 0; b12; b13; b14; 0; b15; b16; b17; 0; b18; b19; b20; 0; b21; b22; b23; 0].
Proof. intros. reflexivity. Qed.
Lemma lor_sum : forall a b n, 0 <= n -> 0 <= a < 2 ^ n -> Z.lor a (Z.shiftl b n) = a + b * 2 ^ n.
Proof.
  intros a b n Hn H. rewrite <- Z.shiftl_mul_pow2 by exact Hn. symmetry. rewrite <- Z.lxor_lor.
  - apply Z.add_nocarry_lxor. apply Z.bits_inj'. intros k Hk. rewrite Z.land_spec, Z.bits_0.
    destruct (Z.lt_ge_cases k n).
    + rewrite Z.shiftl_spec_low by lia. apply andb_false_r.
    + rewrite <- (Z.mod_small a (2 ^ n)) by exact H. rewrite Z.mod_pow2_bits_high by lia. reflexivity.
  - apply Z.bits_inj'. intros k Hk. rewrite Z.land_spec, Z.bits_0.
    destruct (Z.lt_ge_cases k n).
    + rewrite Z.shiftl_spec_low by lia. apply andb_false_r.
    + rewrite <- (Z.mod_small a (2 ^ n)) by exact H. rewrite Z.mod_pow2_bits_high by lia. reflexivity.
Qed.
Lemma lane24 : forall b0 b1 b2, is_byte b0 -> is_byte b1 -> is_byte b2 ->
  i32 (le [b0; b1; b2; 0]) = Z.lor (Z.lor b0 (Z.shiftl b1 8)) (Z.shiftl b2 16) /\ 0 <= i32 (le [b0; b1; b2; 0]) < 16777216.
Proof.
  intros b0 b1 b2 H0 H1 H2. unfold is_byte in *. cbn [le fold_right]. rewrite i32_id by (unfold in32; lia).
  rewrite (lor_sum b0 b1 8) by lia. change (2 ^ 8) with 256. rewrite (lor_sum _ b2 16) by lia. change (2 ^ 16) with 65536. lia.
Qed.
(** The first 24 of the 32 bytes, three by three. *)
Definition cands (b : bytes) : list Z := map (fun k => cand3 (at_ b (3 * k)) (at_ b (3 * k + 1)) (at_ b (3 * k + 2))) (seq 0 8).
Lemma rej_cand_ok : forall b, length b = 32%nat -> is_bytes b -> rej_cand b = cands b.
Proof.
  intros b L F. destruct (list32 b L) as (b0 & b1 & b2 & b3 & b4 & b5 & b6 & b7 & b8 & b9 & b10 & b11 & b12 & b13 & b14 & b15 & b16 & b17 & b18 & b19 & b20 & b21 & b22 & b23 & b24 & b25 & b26 & b27 & b28 & b29 & b30 & b31 & ->).
  clear L. unfold rej_cand. cbv zeta. rewrite rej_shuffle. unfold is_bytes in F. repeat (apply Forall_cons_iff in F; let H := fresh "H" in destruct F as [H F]).
  change (cands _) with [cand3 b0 b1 b2; cand3 b3 b4 b5; cand3 b6 b7 b8; cand3 b9 b10 b11; cand3 b12 b13 b14; cand3 b15 b16 b17; cand3 b18 b19 b20; cand3 b21 b22 b23].
  change (lanes32 _) with [i32 (le [b0; b1; b2; 0]); i32 (le [b3; b4; b5; 0]); i32 (le [b6; b7; b8; 0]); i32 (le [b9; b10; b11; 0]);
    i32 (le [b12; b13; b14; 0]); i32 (le [b15; b16; b17; 0]); i32 (le [b18; b19; b20; 0]); i32 (le [b21; b22; b23; 0])].
  cbn [map]. unfold and_si256, cand3.
  rewrite (proj1 (lane24 b0 b1 b2 ltac:(assumption) ltac:(assumption) ltac:(assumption))).
  rewrite (proj1 (lane24 b3 b4 b5 ltac:(assumption) ltac:(assumption) ltac:(assumption))).
  rewrite (proj1 (lane24 b6 b7 b8 ltac:(assumption) ltac:(assumption) ltac:(assumption))).
  rewrite (proj1 (lane24 b9 b10 b11 ltac:(assumption) ltac:(assumption) ltac:(assumption))).
  rewrite (proj1 (lane24 b12 b13 b14 ltac:(assumption) ltac:(assumption) ltac:(assumption))).
  rewrite (proj1 (lane24 b15 b16 b17 ltac:(assumption) ltac:(assumption) ltac:(assumption))).
  rewrite (proj1 (lane24 b18 b19 b20 ltac:(assumption) ltac:(assumption) ltac:(assumption))).
  rewrite (proj1 (lane24 b21 b22 b23 ltac:(assumption) ltac:(assumption) ltac:(assumption))).
  reflexivity.
Qed.
Lemma filter_map : forall {A B} (f : B -> bool) (g : A -> B) l, filter f (map g l) = map g (filter (fun x => f (g x)) l).
Proof. intros A B f g l. induction l as [|x l IH]; [reflexivity|]. cbn [map filter]. rewrite IH. destruct (f (g x)); reflexivity. Qed.
Lemma select_filter : forall (f : Z -> bool) d, map (fun j => at_ d j) (filter (fun j => nth j (map f d) false) (seq 0 (length d))) = filter f d.
Proof.
  intros f d. induction d as [|x d IH]; [reflexivity|]. cbn [length seq]. rewrite <- seq_shift.
  change (filter (fun j => nth j (map f (x :: d)) false) (0%nat :: map S (seq 0 (length d)))) with
    (if f x then 0%nat :: filter (fun j => nth j (map f (x :: d)) false) (map S (seq 0 (length d))) else filter (fun j => nth j (map f (x :: d)) false) (map S (seq 0 (length d)))).
  rewrite filter_map. change (fun y => nth (S y) (map f (x :: d)) false) with (fun y => nth y (map f d) false).
  cbn [filter]. destruct (f x); cbn [map]; rewrite map_map; rewrite <- IH; reflexivity.
Qed.
Lemma rej_sel_ok : forall d, length d = 8%nat -> Forall (fun x => 0 <= x < 8388608) d ->
  popcnt (rej_good d) = length (filter ltq d) /\ length (rej_sel d) = 8%nat /\ firstn (popcnt (rej_good d)) (rej_sel d) = filter ltq d.
Proof.
  intros d L F. unfold rej_sel, rej_good.
  assert (E : movemask (map (fun x => sub_epi32 x Q) d) = bmask (map ltq d)).
  { rewrite movemask_bmask, map_map. f_equal. apply map_ext_in. intros x Hx. rewrite Forall_forall in F. specialize (F x Hx).
    unfold sub_epi32, ltq. rewrite i32_id by (unfold in32, Q; lia). destruct (Z.ltb_spec (x - Q) 0), (Z.ltb_spec x Q); lia. }
  rewrite E. destruct (lut_ok (map ltq d)) as (P & R & G & S); [rewrite map_length; exact L|].
  assert (C : map (fun j => at_ d j) (chosen (map ltq d)) = filter ltq d). { unfold chosen. rewrite <- L. apply select_filter. }
  split; [rewrite P, <- C, map_length; reflexivity|]. split; [unfold permutevar8x32; rewrite map_length; exact R|].
  unfold permutevar8x32. rewrite firstn_map, S, map_map, <- C. apply map_ext_in. intros j Hj.
  unfold chosen in Hj. apply filter_In in Hj. destruct Hj as [Hj _]. apply in_seq in Hj. rewrite Z.mod_small by lia. rewrite Nat2Z.id. reflexivity.
Qed.
(** The reference on a run of triples. *)
Lemma rej_uniform_triples : forall n (b : bytes) len, length b = (3 * n)%nat -> (n <= len)%nat -> forall rest,
  rej_uniform len (b ++ rest) = filter ltq (map (fun k => cand3 (at_ b (3 * k)) (at_ b (3 * k + 1)) (at_ b (3 * k + 2))) (seq 0 n)) ++
    rej_uniform (len - length (filter ltq (map (fun k => cand3 (at_ b (3 * k)) (at_ b (3 * k + 1)) (at_ b (3 * k + 2))) (seq 0 n)))) rest.
Proof.
  induction n as [|n IH]; intros b len L Hn rest.
  - destruct b; [|discriminate L]. cbn [seq map filter app length]. rewrite Nat.sub_0_r. reflexivity.
  - destruct b as [|b0 [|b1 [|b2 b]]]; try (cbn in L; lia). destruct len as [|len]; [lia|].
    cbn [seq map filter]. change (at_ (b0 :: b1 :: b2 :: b) (3 * 0)) with b0. change (at_ (b0 :: b1 :: b2 :: b) (3 * 0 + 1)) with b1. change (at_ (b0 :: b1 :: b2 :: b) (3 * 0 + 2)) with b2.
    rewrite <- seq_shift, map_map.
    assert (G : map (fun k => cand3 (at_ (b0 :: b1 :: b2 :: b) (3 * S k)) (at_ (b0 :: b1 :: b2 :: b) (3 * S k + 1)) (at_ (b0 :: b1 :: b2 :: b) (3 * S k + 2))) (seq 0 n) =
      map (fun k => cand3 (at_ b (3 * k)) (at_ b (3 * k + 1)) (at_ b (3 * k + 2))) (seq 0 n)).
    { apply map_ext. intro k. replace (3 * S k)%nat with (S (S (S (3 * k)))) by lia. reflexivity. }
    rewrite G. clear G. cbn [app rej_uniform]. fold (cand3 b0 b1 b2). fold (ltq (cand3 b0 b1 b2)).
    assert (Lb : length b = (3 * n)%nat) by (cbn in L; lia).
    destruct (ltq (cand3 b0 b1 b2)).
    + cbn [app length]. rewrite Nat.sub_succ. f_equal. apply IH; [exact Lb|lia].
    + apply (IH b (S len)); [exact Lb|lia].
Qed.
Lemma slice_split : forall (b : bytes) off n k, (k <= n)%nat -> slice b off n = slice b off k ++ slice b (off + k) (n - k).
Proof.
  intros b off n k H. unfold slice. rewrite <- (firstn_skipn k (firstn n (skipn off b))). rewrite firstn_firstn, Nat.min_l by exact H. f_equal.
  rewrite skipn_firstn_comm. f_equal. clear. revert off. induction b as [|x b IH]; intro off; [rewrite !skipn_nil; reflexivity|].
  destruct off as [|off]; [reflexivity|]. cbn [skipn Nat.add]. apply IH.
Qed.
Lemma slice_length : forall (b : bytes) off n, (off + n <= length b)%nat -> length (slice b off n) = n.
Proof. intros b off n H. unfold slice. rewrite firstn_length, skipn_length. lia. Qed.
Lemma slice_at : forall (b : bytes) off n k, (k < n)%nat -> at_ (slice b off n) k = at_ b (off + k).
Proof. intros b off n k H. unfold slice, at_. rewrite nth_firstn_lt by exact H. apply nth_skipn. Qed.
Lemma slice_bytes : forall b off n, is_bytes b -> is_bytes (slice b off n).
Proof.
  intros b off n F. unfold is_bytes, slice in *. rewrite Forall_forall in *. intros x Hx. apply F.
  apply (In_nth _ _ 0) in Hx. destruct Hx as (i & Hi & <-). rewrite firstn_length, skipn_length in Hi. rewrite nth_firstn_lt by lia. rewrite nth_skipn. apply nth_In. lia.
Qed.
Lemma cands_slice : forall buf pos, (pos + 32 <= length buf)%nat ->
  cands (slice buf pos 32) = map (fun k => cand3 (at_ (slice buf pos 24) (3 * k)) (at_ (slice buf pos 24) (3 * k + 1)) (at_ (slice buf pos 24) (3 * k + 2))) (seq 0 8).
Proof.
  intros buf pos H. unfold cands. apply map_ext_in. intros k Hk. apply in_seq in Hk. rewrite !slice_at by lia. reflexivity.
Qed.
Section Rej.
Variable buf : bytes.
Hypothesis LB : (848 <= length buf)%nat.
Hypothesis BB : is_bytes buf.
Definition rej_target : list Z := rej_uniform 256 (slice buf 0 840).
Definition rej_inv (r : list Z) (ctr pos : nat) : Prop := length r = 256%nat /\ (ctr <= 256)%nat /\ (pos <= 840)%nat /\ (exists k, pos = 3 * k)%nat /\
  firstn ctr r ++ rej_uniform (256 - ctr) (slice buf pos (840 - pos)) = rej_target.
Lemma cands_range : forall b, Forall (fun x => 0 <= x < 8388608) (cands b).
Proof. intro b. unfold cands. apply Forall_map, Forall_forall. intros k _. apply cand3_range. Qed.
Lemma rej_vec_ok : forall fuel r ctr pos, (pos + 24 * fuel = 840)%nat -> (ctr <= 248)%nat -> rej_inv r ctr pos ->
  exists r' ctr' pos', rej_vec fuel buf r ctr pos = CRet (r', ctr', pos') /\ rej_inv r' ctr' pos'.
Proof.
  induction fuel as [|fuel IH]; intros r ctr pos Hp Hc I.
  - cbn [rej_vec]. destruct (Nat.leb_spec pos 816); [lia|]. exists r, ctr, pos. auto.
  - cbn [rej_vec]. destruct (Nat.leb_spec pos 816) as [Hle|]; [|lia]. unfold loadu.
    assert (E32 : (pos + 32 <=? length buf)%nat = true) by (apply Nat.leb_le; lia). rewrite E32. cbn [cbind]. clear E32.
    rewrite rej_cand_ok by (try apply slice_bytes; try apply slice_length; try assumption; lia).
    set (d := cands (slice buf pos 32)).
    destruct (rej_sel_ok d) as (P & S & F); [unfold d, cands; rewrite map_length, seq_length; reflexivity|apply cands_range|].
    assert (Lf : (length (filter ltq d) <= 8)%nat).
    { assert (G : forall l : list Z, (length (filter ltq l) <= length l)%nat) by (induction l as [|x l IHl]; cbn; [lia|destruct (ltq x); cbn; lia]).
      etransitivity; [apply G|]. unfold d, cands. rewrite map_length, seq_length. lia. }
    destruct I as (Lr & Hc' & Hpos & (k & Hk) & T).
    destruct (patch_prefix r ctr (rej_sel d) (popcnt (rej_good d))) as (r' & E1 & E2 & E3); [rewrite S; lia|rewrite S, P; lia|].
    rewrite E1. cbn [cbind].
    assert (I' : rej_inv r' (ctr + popcnt (rej_good d)) (pos + 24)).
    { split; [congruence|]. split; [rewrite P; lia|]. split; [lia|]. split; [exists (k + 8)%nat; lia|]. rewrite <- T. rewrite E3, F, <- app_assoc. f_equal.
      rewrite (slice_split buf pos (840 - pos) 24) by lia. rewrite (rej_uniform_triples 8) by (try rewrite slice_length; lia).
      rewrite <- cands_slice by lia. fold d. rewrite P. f_equal. f_equal; [lia|]. f_equal. lia. }
    destruct (Nat.ltb_spec 248 (ctr + popcnt (rej_good d))).
    + exists r', (ctr + popcnt (rej_good d))%nat, (pos + 24)%nat. auto.
    + apply IH; [lia|lia|exact I'].
Qed.
Lemma rej_tail_ok : forall fuel r ctr pos, (840 - pos <= 3 * fuel)%nat -> rej_inv r ctr pos ->
  exists r', rej_tail fuel buf r ctr pos = CRet (r', length rej_target) /\ length r' = 256%nat /\ firstn (length rej_target) r' = rej_target.
Proof.
  induction fuel as [|fuel IH]; intros r ctr pos Hp (Lr & Hc & Hpos & (k & Hk) & T).
  - cbn [rej_tail]. assert (pos = 840%nat) by lia. replace ((pos <=? 837)%nat) with false by (symmetry; apply Nat.leb_gt; lia). rewrite andb_false_r.
    replace (840 - pos)%nat with 0%nat in T by lia. assert (E : rej_uniform (256 - ctr) (slice buf pos 0) = []). { unfold slice. cbn [firstn]. destruct (256 - ctr)%nat; reflexivity. }
    rewrite E, app_nil_r in T. assert (E' : length rej_target = ctr) by (rewrite <- T, firstn_length; lia). exists r. rewrite E'. auto.
  - cbn [rej_tail]. destruct (Nat.ltb_spec ctr 256) as [H1|H1].
    + destruct (Nat.leb_spec pos 837) as [H2|H2]; cbn [andb].
      * assert (E : (pos + 2 <? length buf)%nat = true) by (apply Nat.ltb_lt; lia). rewrite E. clear E.
        fold (cand3 (at_ buf pos) (at_ buf (pos + 1)) (at_ buf (pos + 2))). set (t := cand3 (at_ buf pos) (at_ buf (pos + 1)) (at_ buf (pos + 2))).
        rewrite (slice_split buf pos (840 - pos) 3) in T by lia. rewrite (rej_uniform_triples 1) in T by (try rewrite slice_length; lia).
        cbn [seq map] in T. rewrite !slice_at in T by lia. change (3 * 0)%nat with 0%nat in T. rewrite !Nat.add_0_r, !Nat.add_0_l in T. fold t in T.
        cbn [filter] in T. fold (ltq t). destruct (ltq t).
        -- destruct (patch_prefix r ctr [t] 1) as (r' & E1 & E2 & E3); [cbn; lia|cbn; lia|]. rewrite E1. cbn [cbind].
           apply IH; [lia|]. split; [congruence|]. split; [lia|]. split; [lia|]. split; [exists (S k); lia|].
           replace (S ctr) with (ctr + 1)%nat by lia. rewrite E3, <- app_assoc. rewrite <- T. f_equal. cbn [firstn app length]. f_equal. f_equal; [lia|]. f_equal; lia.
        -- apply IH; [lia|]. split; [exact Lr|]. split; [lia|]. split; [lia|]. split; [exists (S k); lia|].
           rewrite <- T. f_equal. cbn [app length]. f_equal; [lia|]. f_equal; lia.
      * assert (pos = 840%nat) by lia. replace (840 - pos)%nat with 0%nat in T by lia.
        assert (E : rej_uniform (256 - ctr) (slice buf pos 0) = []). { unfold slice. cbn [firstn]. destruct (256 - ctr)%nat; reflexivity. }
        rewrite E, app_nil_r in T. assert (E' : length rej_target = ctr) by (rewrite <- T, firstn_length; lia). exists r. rewrite E'. auto.
    + cbn [andb]. assert (ctr = 256%nat) by lia. subst ctr. assert (E : rej_uniform (256 - 256) (slice buf pos (840 - pos)) = []). { rewrite Nat.sub_diag. destruct (slice buf pos (840 - pos)) as [|? [|? [|? ?]]]; reflexivity. } rewrite E, app_nil_r in T.
      assert (E' : length rej_target = 256%nat) by (rewrite <- T, firstn_length; lia). exists r. rewrite E'. auto.
Qed.
Theorem rej_uniform_avx_ok : forall r, length r = 256%nat ->
  exists r', rej_uniform_avx r buf = CRet (r', length (rej_uniform 256 (firstn 840 buf))) /\ length r' = 256%nat /\
    firstn (length (rej_uniform 256 (firstn 840 buf))) r' = rej_uniform 256 (firstn 840 buf).
Proof.
  intros r L. unfold rej_uniform_avx. change (firstn 840 buf) with (slice buf 0 840). fold rej_target.
  destruct (rej_vec_ok 35 r 0 0) as (r1 & c1 & p1 & E & I); [reflexivity|lia| |].
  { split; [exact L|]. split; [lia|]. split; [lia|]. split; [exists 0%nat; lia|]. reflexivity. }
  rewrite E. cbn [cbind]. apply rej_tail_ok; [|exact I]. lia.
Qed.
End Rej.
