(** * KeccakSponge: the C sponge (one-shot, by blocks and incremental) is the sponge of FIPS 202. *)
From Coq Require Import ZArith List Lia Bool.
From Verif Require Import Base Bits Keccak KeccakSpec KeccakPerm.
Import ListNotations.
Open Scope Z_scope.
Local Opaque StatePermute keccak_f.

(** ** Bits of states and strings *)
Definition mbit (m : bytes) (i : nat) : bool := Z.testbit (nth (i / 8) m 0) (Z.of_nat (i mod 8)).
Lemma div_mod_8 : forall i, (i = 8 * (i / 8) + i mod 8)%nat.
Proof. intro i. apply Nat.div_mod. discriminate. Qed.
Lemma mod_8 : forall i, (i mod 8 < 8)%nat.
Proof. intro i. apply Nat.mod_upper_bound. discriminate. Qed.
Lemma bits_of_byte_length : forall b, List.length (bits_of_byte b) = 8%nat.
Proof. reflexivity. Qed.
Lemma bits_length : forall m, List.length (bits_of_bytes m) = (8 * List.length m)%nat.
Proof.
  intro m. induction m as [|b m IH]; [reflexivity|]. unfold bits_of_bytes in *. cbn [flat_map List.length].
  rewrite app_length, IH, bits_of_byte_length. lia.
Qed.
Lemma nth_bits_of_byte : forall b i, (i < 8)%nat -> nth i (bits_of_byte b) false = Z.testbit b (Z.of_nat i).
Proof.
  intros b i H. rewrite (nth_indep _ false (Z.testbit b (Z.of_nat 0))) by (rewrite bits_of_byte_length; exact H).
  unfold bits_of_byte. rewrite (map_nth (fun i => Z.testbit b (Z.of_nat i))), seq_nth by exact H. reflexivity.
Qed.
Lemma nth_bits : forall m i, nth i (bits_of_bytes m) false = mbit m i.
Proof.
  intros m. induction m as [|b m IH]; intro i.
  - unfold mbit. destruct i; cbn [bits_of_bytes flat_map nth]; destruct (_ / 8)%nat; symmetry; apply Z.testbit_0_l.
  - unfold bits_of_bytes in *. cbn [flat_map]. unfold mbit. destruct (Nat.lt_ge_cases i 8) as [H|H].
    + rewrite app_nth1 by (rewrite bits_of_byte_length; exact H). rewrite nth_bits_of_byte by exact H.
      rewrite Nat.div_small, Nat.mod_small by exact H. reflexivity.
    + rewrite app_nth2 by (rewrite bits_of_byte_length; exact H). rewrite bits_of_byte_length, IH. unfold mbit.
      assert (E : (i = i - 8 + 1 * 8)%nat) by lia. rewrite E at 3 4. rewrite Nat.div_add, Nat.mod_add by discriminate.
      rewrite Nat.add_1_r. reflexivity.
Qed.
Lemma bits_app : forall a b, bits_of_bytes (a ++ b) = bits_of_bytes a ++ bits_of_bytes b.
Proof. intros. unfold bits_of_bytes. apply flat_map_app. Qed.

Lemma bit_index : forall i, (i / 64 = (i / 8) / 8 /\ i mod 64 = 8 * ((i / 8) mod 8) + i mod 8)%nat.
Proof.
  intro i. split; [rewrite Nat.div_div by discriminate; reflexivity|].
  change 64%nat with (8 * 8)%nat. rewrite Nat.mod_mul_r by discriminate. lia.
Qed.
Lemma wf_ext : forall s s', wf s -> wf s' -> (forall i, (i < 1600)%nat -> sbit s i = sbit s' i) -> s = s'.
Proof.
  intros s s' [L F] [L' F'] H. apply (nth_ext _ _ 0 0); [congruence|]. intros k K. rewrite L in K.
  rewrite Forall_forall in F, F'. apply (bits_eq_below 64); [lia|apply F, nth_In; lia|apply F', nth_In; lia|].
  intros n N. specialize (H (k * 64 + Z.to_nat n)%nat ltac:(lia)). unfold sbit in H.
  rewrite Nat.div_add_l, (Nat.div_small (Z.to_nat n)), Nat.add_0_r in H by lia.
  rewrite (Nat.add_comm (k * 64)), Nat.mod_add, Nat.mod_small, Z2Nat.id in H by lia. exact H.
Qed.
Lemma upd_length : forall s i v, List.length (upd s i v) = List.length s.
Proof.
  intros s i v. unfold upd. rewrite <- (firstn_skipn i s) at 3. rewrite !app_length. f_equal. destruct (skipn i s); reflexivity.
Qed.
Lemma nth_upd : forall s i v j d, (i < List.length s)%nat -> nth j (upd s i v) d = if (j =? i)%nat then v else nth j s d.
Proof.
  intros s i v j d H. unfold upd. assert (LF : List.length (firstn i s) = i) by (apply firstn_length_le; lia).
  destruct (skipn i s) as [|w t] eqn:E.
  { exfalso. apply (f_equal (@List.length Z)) in E. rewrite skipn_length in E. cbn in E. lia. }
  rewrite <- (firstn_skipn i s) at 2. rewrite E.
  destruct (Nat.eqb_spec j i) as [->|N].
  - rewrite app_nth2, LF, Nat.sub_diag by lia. reflexivity.
  - destruct (Nat.lt_ge_cases j i) as [J|J]; [rewrite !app_nth1 by lia; reflexivity|].
    rewrite !app_nth2 by lia. rewrite LF. destruct (j - i)%nat eqn:D; [lia|reflexivity].
Qed.
Lemma upd_wf : forall s i v, wf s -> w64 v -> wf (upd s i v).
Proof.
  intros s i v [L F] V. split; [rewrite upd_length; exact L|]. unfold upd. apply Forall_app. split.
  - apply Forall_forall. intros x X. rewrite Forall_forall in F. apply F. rewrite <- (firstn_skipn i s). apply in_or_app. left. exact X.
  - destruct (skipn i s) as [|w t] eqn:E; [constructor|]. constructor; [exact V|]. rewrite Forall_forall in *. intros x X. apply F.
    rewrite <- (firstn_skipn i s). apply in_or_app. right. rewrite E. right. exact X.
Qed.
Lemma nth_w : forall s i, wf s -> w64 (nth i s 0).
Proof.
  intros s i [L F]. destruct (nth_in_or_default i s 0) as [I| ->]; [|split; [lia|reflexivity]]. rewrite Forall_forall in F. apply F, I.
Qed.
Lemma sbit_upd : forall s k v i, wf s -> (k < 25)%nat ->
  sbit (upd s k v) i = if (i / 64 =? k)%nat then Z.testbit v (Z.of_nat (i mod 64)) else sbit s i.
Proof.
  intros s k v i [L _] K. unfold sbit. rewrite nth_upd by lia. destruct (_ =? _)%nat; reflexivity.
Qed.

(** ** XORing bytes into the state *)
Lemma xor_byte_wf : forall s pos b, wf s -> wf (xor_byte s pos b).
Proof. intros s pos b W. apply upd_wf; [exact W|]. apply lxor_w; [apply nth_w, W|apply u64_w]. Qed.
Lemma xor_byte_bit : forall s pos b i, wf s -> is_byte b -> (pos < 200)%nat -> (i < 1600)%nat ->
  sbit (xor_byte s pos b) i = xorb (sbit s i) ((i / 8 =? pos)%nat && Z.testbit b (Z.of_nat (i mod 8))).
Proof.
  intros s pos b i W B P I. unfold xor_byte.
  assert (PK : (pos / 8 < 25)%nat) by (apply Nat.div_lt_upper_bound; lia).
  rewrite sbit_upd by assumption. destruct (bit_index i) as [E1 E2]. rewrite E1.
  pose proof (mod_8 i) as M8. pose proof (mod_8 (i / 8)) as M8'. pose proof (mod_8 pos) as MP.
  pose proof (div_mod_8 (i / 8)) as D1. pose proof (div_mod_8 pos) as D2.
  destruct (Nat.eqb_spec ((i / 8) / 8) (pos / 8)) as [Q|Q].
  - rewrite Z.lxor_spec. replace (Z.testbit (nth (pos / 8) s 0) (Z.of_nat (i mod 64))) with (sbit s i) by (unfold sbit; rewrite E1, Q; reflexivity).
    f_equal. rewrite testbit_u64 by lia. replace (Z.of_nat (i mod 64) <? 64) with true by (symmetry; apply Z.ltb_lt; lia). cbn [andb].
    rewrite Z.shiftl_spec by lia. rewrite E2. destruct (Nat.eqb_spec (i / 8) pos) as [R|R].
    + cbn [andb]. f_equal. rewrite R. lia.
    + cbn [andb]. destruct (Nat.lt_ge_cases ((i / 8) mod 8) (pos mod 8)) as [T|T].
      * apply Z.testbit_neg_r. lia.
      * apply (testbit_high b 8); [unfold is_byte in B; lia|]. lia.
  - destruct (Nat.eqb_spec (i / 8) pos) as [R|R]; [exfalso; apply Q; rewrite R; reflexivity|].
    cbn [andb]. rewrite xorb_false_r. reflexivity.
Qed.
Lemma xor_at_S : forall s pos m n, xor_at s pos m (S n) = xor_byte (xor_at s pos m n) (pos + n) (nth n m 0).
Proof. intros. unfold xor_at. rewrite seq_S, fold_left_app. reflexivity. Qed.
Lemma xor_at_wf : forall s pos m n, wf s -> wf (xor_at s pos m n).
Proof. intros s pos m n W. induction n as [|n IH]; [exact W|]. rewrite xor_at_S. apply xor_byte_wf, IH. Qed.
Lemma nth_byte : forall m j, is_bytes m -> is_byte (nth j m 0).
Proof.
  intros m j B. unfold is_bytes in B. rewrite Forall_forall in B. destruct (nth_in_or_default j m 0) as [I| ->]; [apply B, I|unfold is_byte; lia].
Qed.
Lemma xor_at_bit : forall s pos m n i, wf s -> is_bytes m -> (pos + n <= 200)%nat -> (i < 1600)%nat ->
  sbit (xor_at s pos m n) i =
  xorb (sbit s i) ((pos <=? i / 8)%nat && (i / 8 <? pos + n)%nat && Z.testbit (nth (i / 8 - pos) m 0) (Z.of_nat (i mod 8))).
Proof.
  intros s pos m n i W B P I. induction n as [|n IH].
  - replace ((pos <=? i / 8)%nat && (i / 8 <? pos + 0)%nat)%bool with false.
    + cbn [andb]. rewrite xorb_false_r. reflexivity.
    + symmetry. destruct (Nat.leb_spec pos (i / 8)); [|reflexivity]. cbn [andb]. apply Nat.ltb_ge. lia.
  - rewrite xor_at_S, xor_byte_bit by (try assumption; first [apply xor_at_wf, W | apply nth_byte, B | lia]). rewrite IH by lia.
    rewrite xorb_assoc. f_equal. destruct (Nat.eqb_spec (i / 8) (pos + n)) as [E|E].
    + rewrite E. replace (pos <=? pos + n)%nat with true by (symmetry; apply Nat.leb_le; lia). replace (pos + n <? pos + n)%nat with false by (symmetry; apply Nat.ltb_irrefl).
      replace (pos + n <? pos + S n)%nat with true by (symmetry; apply Nat.ltb_lt; lia). cbn [andb]. rewrite xorb_false_l. do 2 f_equal. lia.
    + cbn [andb]. rewrite xorb_false_r. do 2 f_equal. apply eq_true_iff_eq. rewrite !Nat.ltb_lt. lia.
Qed.
(** Two strings one after the other. *)
Lemma xor_at_app : forall s a b n, wf s -> is_bytes a -> is_bytes b -> (List.length a + n <= 200)%nat ->
  xor_at (xor_at s 0 a (List.length a)) (List.length a) b n = xor_at s 0 (a ++ b) (List.length a + n).
Proof.
  intros s a b n W A B L. apply wf_ext; [apply xor_at_wf, xor_at_wf, W|apply xor_at_wf, W|]. intros i I.
  rewrite !xor_at_bit by (try assumption; first [apply xor_at_wf, W | apply Forall_app; split; assumption | lia]).
  rewrite xorb_assoc. f_equal. cbn [Nat.leb andb]. rewrite !Nat.sub_0_r, !Nat.add_0_l.
  destruct (Nat.ltb_spec (i / 8) (List.length a)) as [T|T].
  - rewrite (app_nth1 a) by exact T. replace (List.length a <=? i / 8)%nat with false by (symmetry; apply Nat.leb_gt; exact T).
    replace (i / 8 <? List.length a + n)%nat with true by (symmetry; apply Nat.ltb_lt; lia). cbn [andb]. rewrite xorb_false_r. reflexivity.
  - rewrite (app_nth2 a) by exact T. replace (List.length a <=? i / 8)%nat with true by (symmetry; apply Nat.leb_le; exact T).
    cbn [andb]. rewrite xorb_false_l. reflexivity.
Qed.
Lemma xor_at_firstn : forall s m m' n, firstn n m = firstn n m' -> xor_at s 0 m n = xor_at s 0 m' n.
Proof.
  intros s m m' n. induction n as [|n IH]; intro E; [reflexivity|]. rewrite !xor_at_S. rewrite IH.
  - f_equal. rewrite <- (firstn_skipn (S n) m), <- (firstn_skipn (S n) m'), E.
    destruct (Nat.lt_ge_cases n (List.length (firstn (S n) m'))) as [T|T]; [rewrite !app_nth1 by exact T; reflexivity|].
    pose proof (f_equal (@List.length Z) E) as EL. rewrite !firstn_length in EL. rewrite firstn_length in T.
    rewrite !skipn_all2 by lia. reflexivity.
  - apply (f_equal (firstn n)) in E. rewrite !firstn_firstn in E. replace (Nat.min n (S n)) with n in E by lia. exact E.
Qed.
(** The loop over lanes does the same. *)
Lemma load64_bit_gen : forall x n k, is_bytes x -> (n <= 8)%nat -> (k < 64)%nat ->
  Z.testbit (fold_left (fun r i => Z.lor r (u64 (Z.shiftl (nth i x 0) (8 * Z.of_nat i)))) (seq 0 n) 0) (Z.of_nat k) =
  (k / 8 <? n)%nat && Z.testbit (nth (k / 8) x 0) (Z.of_nat (k mod 8)).
Proof.
  intros x n k B N K. pose proof (div_mod_8 k) as D. pose proof (mod_8 k) as M. induction n as [|n IH]; [cbn [seq fold_left Nat.ltb Nat.leb andb]; apply Z.testbit_0_l|].
  rewrite seq_S, fold_left_app. cbn [fold_left]. rewrite Z.lor_spec, IH by lia. rewrite Nat.add_0_l. rewrite testbit_u64 by lia.
  replace (Z.of_nat k <? 64) with true by (symmetry; apply Z.ltb_lt; lia). cbn [andb]. rewrite Z.shiftl_spec by lia.
  destruct (Nat.lt_trichotomy (k / 8) n) as [T|[T|T]].
  - replace (k / 8 <? n)%nat with true by (symmetry; apply Nat.ltb_lt; exact T). replace (k / 8 <? S n)%nat with true by (symmetry; apply Nat.ltb_lt; lia).
    rewrite (Z.testbit_neg_r (nth n x 0)) by lia. apply orb_false_r.
  - replace (k / 8 <? n)%nat with false by (symmetry; apply Nat.ltb_ge; lia). replace (k / 8 <? S n)%nat with true by (symmetry; apply Nat.ltb_lt; lia).
    cbn [andb orb]. rewrite <- T. f_equal. lia.
  - replace (k / 8 <? n)%nat with false by (symmetry; apply Nat.ltb_ge; lia). replace (k / 8 <? S n)%nat with false by (symmetry; apply Nat.ltb_ge; lia).
    cbn [andb orb]. apply (testbit_high _ 8); [|lia]. apply (nth_byte x n B).
Qed.
Lemma load64_bit : forall x k, is_bytes x -> (k < 64)%nat -> Z.testbit (load64 x) (Z.of_nat k) = Z.testbit (nth (k / 8) x 0) (Z.of_nat (k mod 8)).
Proof.
  intros x k B K. unfold load64. rewrite load64_bit_gen by (assumption || lia).
  replace (k / 8 <? 8)%nat with true; [reflexivity|]. symmetry. apply Nat.ltb_lt. apply Nat.div_lt_upper_bound; lia.
Qed.
Lemma lor_w : forall a b, w64 a -> w64 b -> w64 (Z.lor a b).
Proof. intros. apply lor_bound; [lia|assumption|assumption]. Qed.
Lemma load64_w : forall x, w64 (load64 x).
Proof.
  intro x. unfold load64. assert (G : forall l r, w64 r -> w64 (fold_left (fun r i => Z.lor r (u64 (Z.shiftl (nth i x 0) (8 * Z.of_nat i)))) l r)).
  { induction l as [|i l IH]; intros r R; [exact R|]. cbn [fold_left]. apply IH, lor_w; [exact R|apply u64_w]. }
  apply G. split; [lia|reflexivity].
Qed.
Lemma nth_firstn8 : forall (m : bytes) l k, (k < 8)%nat -> nth k (firstn 8 (skipn (8 * l) m)) 0 = nth (8 * l + k) m 0.
Proof.
  intros m l k K. transitivity (nth k (skipn (8 * l) m) 0).
  - rewrite <- (firstn_skipn 8 (skipn (8 * l) m)) at 2. destruct (Nat.lt_ge_cases k (List.length (firstn 8 (skipn (8 * l) m)))) as [T|T].
    + rewrite app_nth1 by exact T. reflexivity.
    + rewrite app_nth2 by exact T. rewrite nth_overflow by exact T. rewrite firstn_length in T. rewrite (@skipn_all2 _ 8 (skipn (8 * l) m)) by lia. destruct (k - _)%nat; reflexivity.
  - generalize (8 * l)%nat. intro a. revert m. induction a as [|a IH]; intro m; [reflexivity|]. destruct m as [|b m]; [destruct k; reflexivity|]. apply IH.
Qed.
Lemma is_bytes_sub : forall m a b, is_bytes m -> is_bytes (firstn a (skipn b m)).
Proof.
  intros m a b B. unfold is_bytes in *. rewrite Forall_forall in *. intros x X. apply B.
  rewrite <- (firstn_skipn b m). apply in_or_app. right. rewrite <- (firstn_skipn a (skipn b m)). apply in_or_app. left. exact X.
Qed.
Lemma is_bytes_skipn : forall m b, is_bytes m -> is_bytes (skipn b m).
Proof.
  intros m b B. unfold is_bytes in *. rewrite Forall_forall in *. intros x X. apply B.
  rewrite <- (firstn_skipn b m). apply in_or_app. right. exact X.
Qed.
Lemma is_bytes_firstn : forall m b, is_bytes m -> is_bytes (firstn b m).
Proof.
  intros m b B. unfold is_bytes in *. rewrite Forall_forall in *. intros x X. apply B.
  rewrite <- (firstn_skipn b m). apply in_or_app. left. exact X.
Qed.
Lemma xor_lanes_ok : forall s m n, wf s -> is_bytes m -> (n <= 25)%nat ->
  let t := fold_left (fun s i => upd s i (Z.lxor (nth i s 0) (load64 (firstn 8 (skipn (8 * i) m))))) (seq 0 n) s in
  wf t /\ forall i, (i < 1600)%nat -> sbit t i = xorb (sbit s i) ((i / 64 <? n)%nat && mbit m i).
Proof.
  intros s m n W B N. induction n as [|n IH].
  - cbn [seq fold_left Nat.ltb Nat.leb andb]. split; [exact W|]. intros i I. rewrite xorb_false_r. reflexivity.
  - rewrite seq_S, fold_left_app. cbn [fold_left]. rewrite Nat.add_0_l. destruct IH as [IW IB]; [lia|].
    set (t := fold_left _ (seq 0 n) s) in *. cbv zeta.
    assert (V : w64 (Z.lxor (nth n t 0) (load64 (firstn 8 (skipn (8 * n) m))))) by (apply lxor_w; [apply nth_w, IW|apply load64_w]).
    split; [apply upd_wf; assumption|]. intros i I. rewrite sbit_upd by (assumption || lia).
    assert (M64 : (i mod 64 < 64)%nat) by (apply Nat.mod_upper_bound; discriminate).
    destruct (Nat.eqb_spec (i / 64) n) as [E|E].
    + rewrite Z.lxor_spec. replace (Z.testbit (nth n t 0) (Z.of_nat (i mod 64))) with (sbit t i) by (unfold sbit; rewrite E; reflexivity).
      rewrite IB by exact I. rewrite E. rewrite Nat.ltb_irrefl. cbn [andb]. rewrite xorb_false_r.
      replace (n <? S n)%nat with true by (symmetry; apply Nat.ltb_lt; lia). cbn [andb]. f_equal.
      rewrite load64_bit by (first [apply is_bytes_sub, B | exact M64]). unfold mbit. destruct (bit_index i) as [E1 E2]. rewrite E2.
      pose proof (mod_8 i). pose proof (mod_8 (i / 8)). rewrite (Nat.mul_comm 8 ((i / 8) mod 8)). rewrite Nat.div_add_l by discriminate.
      rewrite (Nat.div_small (i mod 8)) by assumption. rewrite Nat.add_0_r. rewrite nth_firstn8 by assumption.
      rewrite (Nat.add_comm (_ * 8)), Nat.mod_add, (Nat.mod_small (i mod 8)) by (discriminate || assumption).
      do 2 f_equal. rewrite <- E, E1. symmetry. apply div_mod_8.
    + rewrite IB by exact I. do 2 f_equal. apply eq_true_iff_eq. rewrite !Nat.ltb_lt. lia.
Qed.
(** A rate: a positive multiple of 8 below 200. *)
Definition rate (r : nat) : Prop := exists q, (r = 8 * q /\ 0 < q < 25)%nat.
Lemma rate_bounds : forall r, rate r -> (8 <= r < 200)%nat.
Proof. intros r (q & -> & Q). lia. Qed.
Lemma xor_block_eq : forall r s m, rate r -> wf s -> is_bytes m -> xor_block r s m = xor_at s 0 m r.
Proof.
  intros r s m (q & -> & Q) W B. unfold xor_block. rewrite (Nat.mul_comm 8 q), Nat.div_mul by discriminate.
  destruct (xor_lanes_ok s m q W B ltac:(lia)) as [TW TB]. apply wf_ext; [exact TW|apply xor_at_wf, W|]. intros i I.
  rewrite TB by exact I. rewrite xor_at_bit by (assumption || lia). f_equal. rewrite Nat.sub_0_r, Nat.add_0_l. cbn [Nat.leb andb].
  unfold mbit. f_equal. destruct (bit_index i) as [E1 _]. rewrite E1. apply eq_true_iff_eq. rewrite !Nat.ltb_lt. split; intro H.
  - pose proof (div_mod_8 (i / 8)). pose proof (mod_8 (i / 8)). lia.
  - apply Nat.div_lt_upper_bound; lia.
Qed.

(** ** Absorbing *)
(** The state after the full blocks of m, and what is left of m. *)
Fixpoint ab_loop (fuel r : nat) (s : list Z) (m : bytes) : list Z * bytes :=
  match fuel with
  | O => (s, m)
  | S f => if (r <=? List.length m)%nat then ab_loop f r (StatePermute (xor_at s 0 m r)) (skipn r m) else (s, m)
  end.
Definition ab (r : nat) (s : list Z) (m : bytes) : list Z * bytes := ab_loop (List.length m) r s m.
Lemma ab_loop_fuel : forall r, (0 < r)%nat -> forall f f' s m, (List.length m <= f)%nat -> (List.length m <= f')%nat ->
  ab_loop f r s m = ab_loop f' r s m.
Proof.
  intros r R f. induction f as [|f IH]; intros f' s m L L'.
  - destruct m; [|cbn in L; lia]. destruct f'; [reflexivity|]. cbn [ab_loop List.length]. replace (r <=? 0)%nat with false by (symmetry; apply Nat.leb_gt; exact R). reflexivity.
  - destruct f' as [|f'].
    + destruct m; [|cbn in L'; lia]. cbn [ab_loop List.length]. replace (r <=? 0)%nat with false by (symmetry; apply Nat.leb_gt; exact R). reflexivity.
    + cbn [ab_loop]. destruct (r <=? List.length m)%nat eqn:E; [|reflexivity]. apply Nat.leb_le in E.
      apply IH; rewrite skipn_length; lia.
Qed.
Lemma ab_eq : forall r s m, (0 < r)%nat ->
  ab r s m = if (r <=? List.length m)%nat then ab r (StatePermute (xor_at s 0 m r)) (skipn r m) else (s, m).
Proof.
  intros r s m R. unfold ab at 1. destruct (List.length m) as [|n] eqn:L; cbn [ab_loop].
  - replace (r <=? 0)%nat with false by (symmetry; apply Nat.leb_gt; exact R). reflexivity.
  - rewrite L. destruct (r <=? S n)%nat eqn:E; [|reflexivity]. apply Nat.leb_le in E.
    apply ab_loop_fuel; try exact R; rewrite skipn_length; lia.
Qed.
Lemma permute_wf : forall s, wf s -> wf (StatePermute s).
Proof. intros s W. apply permute_is_keccak_f, W. Qed.
(** Induction on the number of blocks. *)
Lemma ab_ind : forall r, (0 < r)%nat -> forall Q : list Z -> bytes -> Prop,
  (forall s m, (List.length m < r)%nat -> Q s m) ->
  (forall s m, (r <= List.length m)%nat -> Q (StatePermute (xor_at s 0 m r)) (skipn r m) -> Q s m) -> forall s m, Q s m.
Proof.
  intros r R Q H1 H2 s m. remember (List.length m) as n eqn:L. revert s m L.
  induction n as [n IH] using lt_wf_ind. intros s m L. destruct (Nat.lt_ge_cases (List.length m) r) as [T|T]; [apply H1, T|].
  apply H2; [exact T|]. eapply IH; [|reflexivity]. rewrite skipn_length. lia.
Qed.
Lemma ab_lt : forall r s m, (List.length m < r)%nat -> ab r s m = (s, m).
Proof. intros r s m L. rewrite ab_eq by lia. replace (r <=? List.length m)%nat with false by (symmetry; apply Nat.leb_gt; exact L). reflexivity. Qed.
Lemma ab_ge : forall r s m, (0 < r)%nat -> (r <= List.length m)%nat -> ab r s m = ab r (StatePermute (xor_at s 0 m r)) (skipn r m).
Proof. intros r s m R L. rewrite ab_eq by exact R. replace (r <=? List.length m)%nat with true by (symmetry; apply Nat.leb_le; exact L). reflexivity. Qed.
Lemma ab_ok : forall r, (0 < r)%nat -> forall s m, wf s -> is_bytes m -> forall s' rest, ab r s m = (s', rest) ->
  wf s' /\ is_bytes rest /\ (List.length rest < r)%nat /\ List.length rest = (List.length m mod r)%nat.
Proof.
  intros r R s m. pattern s, m. apply (ab_ind r R); clear s m.
  - intros s m L W B s' rest E. rewrite ab_lt in E by exact L. injection E as <- <-. rewrite Nat.mod_small by exact L. auto.
  - intros s m L IH W B s' rest E. rewrite ab_ge in E by assumption.
    destruct (IH (permute_wf _ (xor_at_wf _ _ _ _ W)) (is_bytes_skipn _ _ B) _ _ E) as (A1 & A2 & A3 & A4). repeat (split; [assumption|]).
    rewrite A4, skipn_length. replace (List.length m) with (List.length m - r + 1 * r)%nat at 2 by lia. rewrite Nat.mod_add by lia. reflexivity.
Qed.
Lemma ab_app : forall r, (0 < r)%nat -> forall s m, forall b s' rest, ab r s m = (s', rest) -> ab r s (m ++ b) = ab r s' (rest ++ b).
Proof.
  intros r R s m. pattern s, m. apply (ab_ind r R); clear s m.
  - intros s m L b s' rest E. rewrite ab_lt in E by exact L. injection E as <- <-. reflexivity.
  - intros s m L IH b s' rest E. rewrite ab_ge in E by assumption. rewrite <- (IH b _ _ E).
    rewrite (ab_ge r s (m ++ b)) by (try exact R; rewrite app_length; lia).
    replace (skipn r (m ++ b)) with (skipn r m ++ b) by (rewrite skipn_app; replace (r - List.length m)%nat with 0%nat by lia; reflexivity).
    f_equal. f_equal. apply xor_at_firstn. rewrite firstn_app. replace (r - List.length m)%nat with 0%nat by lia. rewrite firstn_O, app_nil_r. reflexivity.
Qed.
Lemma absorb_loop_eq : forall r, rate r -> forall fuel s m, wf s -> is_bytes m -> absorb_loop fuel r s m = ab_loop fuel r s m.
Proof.
  intros r R fuel. induction fuel as [|f IH]; intros s m W B; [reflexivity|]. cbn [absorb_loop ab_loop].
  destruct (r <=? List.length m)%nat; [|reflexivity]. rewrite xor_block_eq by assumption. apply IH; [apply permute_wf, xor_at_wf, W|apply is_bytes_skipn, B].
Qed.

(** The incremental context that has absorbed M. *)
Definition zero_state : list Z := repeat 0 25.
Lemma zero_wf : wf zero_state.
Proof. split; [reflexivity|]. apply Forall_forall. intros x X. apply repeat_spec in X. subst x. split; [lia|reflexivity]. Qed.
Definition inc_of (r : nat) (M : bytes) : incctx :=
  let (s, rest) := ab r zero_state M in (xor_at s 0 rest (List.length rest), List.length rest).
Lemma inc_loop_0 : forall r, (0 < r)%nat -> forall fuel s m,
  inc_absorb_loop fuel r (s, 0%nat) m = let (s', m') := ab_loop fuel r s m in ((s', 0%nat), m').
Proof.
  intros r R fuel. induction fuel as [|f IH]; intros s m; [reflexivity|]. cbn [inc_absorb_loop ab_loop].
  rewrite Nat.add_0_r, Nat.sub_0_r. destruct (r <=? List.length m)%nat; [apply IH|reflexivity].
Qed.
Lemma inc_absorb_eq : forall r s rest m, (0 < r <= 200)%nat -> wf s -> is_bytes rest -> is_bytes m -> (List.length rest < r)%nat ->
  keccak_inc_absorb r (xor_at s 0 rest (List.length rest), List.length rest) m =
  let (s', rest') := ab r s (rest ++ m) in (xor_at s' 0 rest' (List.length rest'), List.length rest').
Proof.
  intros r s rest m R W B1 B2 L. unfold keccak_inc_absorb. cbn [snd].
  destruct (Nat.lt_ge_cases (List.length m + List.length rest) r) as [T|T].
  - rewrite ab_lt by (rewrite app_length; lia).
    assert (E : inc_absorb_loop (List.length m + List.length rest) r (xor_at s 0 rest (List.length rest), List.length rest) m = ((xor_at s 0 rest (List.length rest), List.length rest), m)).
    { destruct (List.length m + List.length rest)%nat eqn:N; [reflexivity|]. cbn [inc_absorb_loop]. rewrite N.
      replace (r <=? S n)%nat with false by (symmetry; apply Nat.leb_gt; lia). reflexivity. }
    rewrite E. rewrite xor_at_app by (try assumption; lia). rewrite app_length. reflexivity.
  - rewrite ab_ge by (try lia; rewrite app_length; lia).
    destruct (List.length m + List.length rest)%nat as [|f] eqn:N; [lia|]. cbn [inc_absorb_loop]. rewrite N.
    replace (r <=? S f)%nat with true by (symmetry; apply Nat.leb_le; lia).
    rewrite xor_at_app by (try assumption; lia). replace (List.length rest + (r - List.length rest))%nat with r by lia.
    rewrite inc_loop_0 by lia. unfold ab. rewrite skipn_app, (skipn_all2 rest) by lia. rewrite app_nil_l.
    rewrite (ab_loop_fuel r ltac:(lia) f (List.length (skipn (r - List.length rest) m))) by (rewrite ?skipn_length; lia).
    destruct (ab_loop _ _ _ _) as [s' m']. reflexivity.
Qed.
Theorem inc_absorb_any : forall r M m, rate r -> is_bytes M -> is_bytes m -> keccak_inc_absorb r (inc_of r M) m = inc_of r (M ++ m).
Proof.
  intros r M m R B1 B2. pose proof (rate_bounds r R) as RB. unfold inc_of. destruct (ab r zero_state M) as [s rest] eqn:E.
  destruct (ab_ok r ltac:(lia) _ _ zero_wf B1 _ _ E) as (A1 & A2 & A3 & _).
  rewrite (ab_app r ltac:(lia) zero_state M m _ _ E). apply inc_absorb_eq; (assumption || lia).
Qed.
Lemma inc_init_of : forall r, (0 < r)%nat -> keccak_inc_init = inc_of r [].
Proof. intros r R. unfold inc_of. rewrite ab_lt by (cbn; lia). reflexivity. Qed.

(** ** Padding *)
(** The block that finishes a string whose last n bytes do not fill a block. *)
Definition padblock (r : nat) (p : Z) (rest : bytes) : bytes :=
  let t := rest ++ skipn (List.length rest) (repeat 0 r) in
  let t := upd t (List.length rest) p in
  upd t (r - 1) (Z.lor (nth (r - 1) t 0) 128).
Definition padstate (r : nat) (p : Z) (M : bytes) : list Z :=
  let (s, rest) := ab r zero_state M in xor_at s 0 (padblock r p rest) r.
Lemma t0_length : forall r (rest : bytes), (List.length rest < r)%nat -> List.length (rest ++ skipn (List.length rest) (repeat 0 r)) = r.
Proof. intros. rewrite app_length, skipn_length, repeat_length. lia. Qed.
Lemma upd_bytes : forall t i v, is_bytes t -> is_byte v -> is_bytes (upd t i v).
Proof.
  intros t i v B V. unfold upd, is_bytes in *. apply Forall_app. split; [apply is_bytes_firstn, B|].
  pose proof (is_bytes_skipn t i B) as K. destruct (skipn i t); [constructor|]. inversion K; subst. constructor; assumption.
Qed.
Lemma lor128_byte : forall v, is_byte v -> is_byte (Z.lor v 128).
Proof. intros v V. apply (lor_bound v 128 8); [lia|exact V|lia]. Qed.
Lemma padblock_ok : forall r p rest, (List.length rest < r)%nat -> is_byte p -> is_bytes rest ->
  List.length (padblock r p rest) = r /\ is_bytes (padblock r p rest).
Proof.
  intros r p rest L P B. pose proof (t0_length r rest L) as T0. unfold padblock. split; [rewrite !upd_length; exact T0|].
  assert (B0 : is_bytes (rest ++ skipn (List.length rest) (repeat 0 r))).
  { apply Forall_app. split; [exact B|]. apply is_bytes_skipn. apply Forall_forall. intros x X. apply repeat_spec in X. subst x. unfold is_byte. lia. }
  assert (B1 := upd_bytes _ (List.length rest) p B0 P). apply upd_bytes; [exact B1|]. apply lor128_byte, nth_byte, B1.
Qed.
Lemma in_skipn : forall (l : bytes) n x, In x (skipn n l) -> In x l.
Proof. intros l n x X. rewrite <- (firstn_skipn n l). apply in_or_app. right. exact X. Qed.
Lemma nth_t0 : forall r (rest : bytes) j, (List.length rest < r)%nat -> nth j (rest ++ skipn (List.length rest) (repeat 0 r)) 0 = if (j <? List.length rest)%nat then nth j rest 0 else 0.
Proof.
  intros r rest j L. destruct (Nat.ltb_spec j (List.length rest)) as [T|T]; [apply app_nth1, T|]. rewrite app_nth2 by exact T.
  destruct (nth_in_or_default (j - List.length rest) (skipn (List.length rest) (repeat 0 r)) 0) as [I|E]; [|exact E].
  apply in_skipn, repeat_spec in I. exact I.
Qed.
Lemma padblock_nth : forall r p rest j, (List.length rest < r)%nat -> (j < r)%nat ->
  nth j (padblock r p rest) 0 =
  let v := if (j <? List.length rest)%nat then nth j rest 0 else if (j =? List.length rest)%nat then p else 0 in
  if (j =? r - 1)%nat then Z.lor v 128 else v.
Proof.
  intros r p rest j L J. unfold padblock. pose proof (t0_length r rest L) as T0. cbv zeta.
  rewrite nth_upd by (rewrite upd_length, T0; lia). rewrite !nth_upd by (rewrite T0; lia). rewrite !nth_t0 by exact L.
  assert (Q : forall j, (if (j =? List.length rest)%nat then p else if (j <? List.length rest)%nat then nth j rest 0 else 0) =
    (if (j <? List.length rest)%nat then nth j rest 0 else if (j =? List.length rest)%nat then p else 0)).
  { intro k. destruct (Nat.eqb_spec k (List.length rest)) as [->|N]; [rewrite Nat.ltb_irrefl|]; reflexivity. }
  rewrite !Q. destruct (Nat.eqb_spec j (r - 1)) as [->|N]; reflexivity.
Qed.
(** Finalising in place is XORing that block. *)
Lemma finalize_eq : forall r p s rest, (r <= 200)%nat -> wf s -> is_bytes rest -> (List.length rest < r)%nat -> 0 <= p < 128 ->
  xor_byte (xor_byte (xor_at s 0 rest (List.length rest)) (List.length rest) p) (r - 1) 128 = xor_at s 0 (padblock r p rest) r.
Proof.
  intros r p s rest R W B L P. assert (PB : is_byte p) by (unfold is_byte; lia). assert (B128 : is_byte 128) by (unfold is_byte; lia).
  destruct (padblock_ok r p rest L PB B) as [PL PBB].
  assert (W1 : wf (xor_at s 0 rest (List.length rest))) by (apply xor_at_wf, W).
  apply wf_ext; [apply xor_byte_wf, xor_byte_wf, W1|apply xor_at_wf, W|]. intros i I.
  rewrite xor_byte_bit; [|apply xor_byte_wf, W1|exact B128|lia|exact I]. rewrite xor_byte_bit; [|exact W1|exact PB|lia|exact I].
  rewrite xor_at_bit; [|exact W|exact B|lia|exact I]. rewrite xor_at_bit; [|exact W|exact PBB|lia|exact I].
  rewrite !xorb_assoc. f_equal. cbn [Nat.leb andb]. rewrite Nat.sub_0_r, !Nat.add_0_l. set (j := (i / 8)%nat). set (k := (i mod 8)%nat).
  destruct (Nat.ltb_spec j r) as [J|J]; cbn [andb].
  2:{ replace (j <? List.length rest)%nat with false by (symmetry; apply Nat.ltb_ge; lia). replace (j =? List.length rest)%nat with false by (symmetry; apply Nat.eqb_neq; lia).
      replace (j =? r - 1)%nat with false by (symmetry; apply Nat.eqb_neq; lia). reflexivity. }
  rewrite padblock_nth by assumption. cbv zeta.
  assert (K8 : (k < 8)%nat) by apply mod_8.
  destruct (Nat.ltb_spec j (List.length rest)) as [T|T]; cbn [andb].
  { replace (j =? List.length rest)%nat with false by (symmetry; apply Nat.eqb_neq; lia).
    replace (j =? r - 1)%nat with false by (symmetry; apply Nat.eqb_neq; lia). cbn [andb]. rewrite !xorb_false_r. reflexivity. }
  rewrite xorb_false_l. destruct (Nat.eqb_spec j (List.length rest)) as [E|E]; cbn [andb].
  - destruct (Nat.eqb_spec j (r - 1)) as [E'|E']; cbn [andb]; [|apply xorb_false_r]. rewrite Z.lor_spec.
    assert (C : k = 7%nat \/ (k < 7)%nat) by lia. destruct C as [-> |C].
    + rewrite (testbit_high p 7) by lia. reflexivity.
    + replace (Z.testbit 128 (Z.of_nat k)) with false; [rewrite xorb_false_r, orb_false_r; reflexivity|].
      change 128 with (2 ^ 7). rewrite Z.pow2_bits_eqb by lia. symmetry. apply Z.eqb_neq. lia.
  - rewrite xorb_false_l. destruct (Nat.eqb_spec j (r - 1)); cbn [andb]; [rewrite Z.lor_0_l; reflexivity|rewrite Z.testbit_0_l; reflexivity].
Qed.
Theorem finalize_any : forall r p M, rate r -> is_bytes M -> 0 <= p < 128 ->
  keccak_inc_finalize r p (inc_of r M) = (padstate r p M, 0%nat) /\ keccak_absorb r M p = padstate r p M.
Proof.
  intros r p M R B P. pose proof (rate_bounds r R) as RB. unfold inc_of, padstate, keccak_absorb. fold zero_state.
  rewrite absorb_loop_eq by (assumption || apply zero_wf). fold (ab r zero_state M). destruct (ab r zero_state M) as [s rest] eqn:E.
  destruct (ab_ok r ltac:(lia) _ _ zero_wf B _ _ E) as (A1 & A2 & A3 & _). split.
  - unfold keccak_inc_finalize. rewrite finalize_eq by (assumption || lia). reflexivity.
  - fold (padblock r p rest). apply xor_block_eq; [exact R|exact A1|]. apply padblock_ok; [exact A3|unfold is_byte; lia|exact A2].
Qed.
