(** * FipsX4Ok: the four-way SHAKE of the AVX2 build is four SHAKEs of FIPS 202. *)
From Coq Require Import ZArith List Lia Bool.
From Verif Require Import Base DilArith DilNtt Keccak KeccakSpec KeccakPerm KeccakSponge KeccakProps PropsKeccak KeccakX4 KeccakX4Ok.
Import ListNotations.
Open Scope Z_scope.
Local Opaque StatePermute keccak_f f1600x4.

(** ** Lanes of a state *)
Lemma lane_of_wf : forall s j, okst s -> wf (lane_of s j).
Proof.
  intros s j [L F]. split; [unfold lane_of; rewrite map_length; exact L|]. apply Forall_map. eapply Forall_impl; [|exact F].
  intros v [Lv Fv]. apply nth_w64, Fv.
Qed.
Lemma nth_lane : forall s i j, nth i (lane_of s j) 0 = nth j (nth i s zero4) 0.
Proof.
  intros s i j. destruct (Nat.ltb_spec i (length s)) as [N | N].
  - unfold lane_of. rewrite (nth_indep _ 0 (nth j zero4 0)) by (rewrite map_length; exact N). rewrite (map_nth (fun v => nth j v 0)). reflexivity.
  - rewrite (nth_overflow (lane_of s j)) by (unfold lane_of; rewrite map_length; exact N). rewrite (nth_overflow s) by exact N.
    do 4 (destruct j as [|j]; [reflexivity|]). destruct j; reflexivity.
Qed.
Lemma lane_put : forall s i v j, lane_of (put s i v) j = upd (lane_of s j) i (nth j v 0).
Proof.
  intros s. unfold lane_of. induction s as [|h s IH]; intros i v j; [destruct i; reflexivity|]. destruct i as [|i]; [reflexivity|].
  cbn [put map]. rewrite IH. reflexivity.
Qed.
Lemma put_okst : forall s i v, okst s -> okv v -> okst (put s i v).
Proof. intros s i v [L F] V. split; [rewrite put_length; exact L|apply put_Forall; assumption]. Qed.
Lemma xor_put : forall s i t, okst s -> okv t -> (i < 25)%nat ->
  okst (put s i (map2 Z.lxor (nth i s zero4) t)) /\
  forall j, (j < 4)%nat -> lane_of (put s i (map2 Z.lxor (nth i s zero4) t)) j = upd (lane_of s j) i (Z.lxor (nth i (lane_of s j) 0) (nth j t 0)).
Proof.
  intros s i t O T I. assert (N : okv (nth i s zero4)) by (apply nth_okv, O).
  split; [apply put_okst; [exact O|]; apply map2_okv; auto using lxor_w|].
  intros j J. rewrite lane_put, nth_map2_4, nth_lane; [reflexivity|apply N|apply T|exact J].
Qed.

(** ** Gathering *)
Definition buf (ins : list bytes) (j : nat) : bytes := nth j ins [].
Lemma gather_ok : forall ins pos, length ins = 4%nat -> (forall j, (j < 4)%nat -> (pos + 8 <= length (buf ins j))%nat) ->
  exists t, gather ins pos = CRet t /\ okv t /\ forall j, (j < 4)%nat -> nth j t 0 = load64 (firstn 8 (skipn pos (buf ins j))).
Proof.
  intros ins pos L H. destruct ins as [|b0 [|b1 [|b2 [|b3 [|]]]]]; try discriminate L.
  assert (H0 := H 0%nat ltac:(lia)). assert (H1 := H 1%nat ltac:(lia)). assert (H2 := H 2%nat ltac:(lia)). assert (H3 := H 3%nat ltac:(lia)).
  cbn [buf nth] in H0, H1, H2, H3. unfold gather. cbn [mapM]. rewrite (proj2 (Nat.leb_le _ _) H0), (proj2 (Nat.leb_le _ _) H1), (proj2 (Nat.leb_le _ _) H2), (proj2 (Nat.leb_le _ _) H3).
  cbn [cbind]. eexists. split; [reflexivity|]. split.
  - split; [reflexivity|]. repeat (apply Forall_cons; [apply load64_w|]). apply Forall_nil.
  - intros j J. do 4 (destruct j as [|j]; [reflexivity|]). lia.
Qed.
(** The loop of [xor_gather] on one lane. *)
Definition xor_lanes (m : bytes) (i n : nat) (s : list Z) : list Z :=
  fold_left (fun s k => upd s k (Z.lxor (nth k s 0) (load64 (firstn 8 (skipn (8 * k) m))))) (seq i n) s.
Lemma skipn_skipn : forall A a b (l : list A), skipn a (skipn b l) = skipn (b + a) l.
Proof. intros A a b. induction b as [|b IH]; intro l; [reflexivity|]. destruct l; [destruct a; reflexivity|]. cbn [skipn Nat.add]. apply IH. Qed.
Lemma xor_gather_ok : forall ins pos n i s, length ins = 4%nat -> (forall j, (j < 4)%nat -> (pos + 8 * (i + n) <= length (buf ins j))%nat) ->
  (i + n <= 25)%nat -> okst s ->
  exists s', xor_gather ins n i (pos + 8 * i) s = CRet s' /\ okst s' /\
    forall j, (j < 4)%nat -> lane_of s' j = xor_lanes (skipn pos (buf ins j)) i n (lane_of s j).
Proof.
  intros ins pos n. induction n as [|n IH]; intros i s L H N O.
  - exists s. split; [reflexivity|]. split; [exact O|]. intros. reflexivity.
  - cbn [xor_gather]. destruct (gather_ok ins (pos + 8 * i) L) as (t & Et & Ot & Ht).
    { intros j J. specialize (H j J). lia. }
    rewrite Et. cbn [cbind]. destruct (xor_put s i t O Ot ltac:(lia)) as [O1 H1].
    replace (pos + 8 * i + 8)%nat with (pos + 8 * S i)%nat by lia.
    destruct (IH (S i) (put s i (map2 Z.lxor (nth i s zero4) t)) L) as (s' & E & O' & H'); [|lia|exact O1|].
    { intros j J. specialize (H j J). lia. }
    exists s'. split; [exact E|]. split; [exact O'|]. intros j J. rewrite (H' j J), (H1 j J). unfold xor_lanes. cbn [seq fold_left].
    rewrite (Ht j J), skipn_skipn. reflexivity.
Qed.
Lemma xor_lanes_at : forall m n s, wf s -> is_bytes m -> (n <= 25)%nat -> xor_lanes m 0 n s = xor_at s 0 m (8 * n).
Proof.
  intros m n s W B N. destruct (xor_lanes_ok s m n W B N) as [TW TB]. apply wf_ext; [exact TW|apply xor_at_wf, W|]. intros i I.
  unfold xor_lanes. rewrite TB by exact I. rewrite xor_at_bit by (assumption || lia). f_equal. rewrite Nat.sub_0_r, Nat.add_0_l. cbn [Nat.leb andb].
  unfold mbit. f_equal. destruct (bit_index i) as [E1 _]. rewrite E1. apply eq_true_iff_eq. rewrite !Nat.ltb_lt. split; intro H.
  - pose proof (div_mod_8 (i / 8)). pose proof (mod_8 (i / 8)). lia.
  - apply Nat.div_lt_upper_bound; lia.
Qed.
(** The masked last word. *)
Lemma masked_word : forall m i k s, wf s -> is_bytes m -> (i < 25)%nat -> (0 < k < 8)%nat ->
  upd (xor_at s 0 m (8 * i)) i (Z.lxor (nth i (xor_at s 0 m (8 * i)) 0)
     (Z.land (load64 (firstn 8 (skipn (8 * i) m))) (u64 (Z.shiftl 1 (8 * Z.of_nat k)) - 1))) = xor_at s 0 m (8 * i + k).
Proof.
  intros m i k s W B I K. set (t := xor_at s 0 m (8 * i)). assert (Wt : wf t) by (apply xor_at_wf, W).
  assert (EM : u64 (Z.shiftl 1 (8 * Z.of_nat k)) - 1 = Z.ones (8 * Z.of_nat k)).
  { rewrite Z.shiftl_1_l. unfold u64. rewrite Z.mod_small; [rewrite Z.ones_equiv; lia|]. split; [apply Z.pow_nonneg; lia|].
    change 18446744073709551616 with (2 ^ 64). apply Z.pow_lt_mono_r; lia. }
  rewrite EM. clear EM.
  apply wf_ext; [apply upd_wf; [exact Wt|]; apply lxor_w; [apply nth_w, Wt|]; rewrite Z.land_comm; apply land_w, load64_w|apply xor_at_wf, W|].
  intros b Hb. rewrite sbit_upd by assumption. rewrite xor_at_bit by (assumption || lia). cbn [Nat.leb andb]. rewrite Nat.sub_0_r, Nat.add_0_l.
  assert (St : sbit t b = xorb (sbit s b) ((b / 8 <? 8 * i)%nat && Z.testbit (nth (b / 8) m 0) (Z.of_nat (b mod 8)))).
  { unfold t. rewrite xor_at_bit by (assumption || lia). cbn [Nat.leb andb]. rewrite Nat.sub_0_r, Nat.add_0_l. reflexivity. }
  destruct (bit_index b) as [E1 E2]. assert (M8 := mod_8 b). assert (M8' := mod_8 (b / 8)). assert (D8 := div_mod_8 (b / 8)).
  destruct (Nat.eqb_spec (b / 64) i) as [E | E].
  - rewrite Z.lxor_spec. replace (Z.testbit (nth i t 0) (Z.of_nat (b mod 64))) with (sbit t b) by (unfold sbit; rewrite E; reflexivity).
    rewrite St. assert (Eb : (b / 8 / 8 = i)%nat) by (rewrite <- E1; exact E). rewrite Eb in D8.
    replace (b / 8 <? 8 * i)%nat with false by (symmetry; apply Nat.ltb_ge; lia). cbn [andb]. rewrite xorb_false_r. f_equal.
    rewrite Z.land_spec, load64_bit by (first [apply is_bytes_sub, B | rewrite E2; lia]). rewrite E2.
    rewrite Nat.mul_comm, Nat.div_add_l, (Nat.div_small (b mod 8)), Nat.add_0_r by lia. rewrite nth_firstn8 by lia.
    rewrite (Nat.add_comm (_ * 8) (b mod 8)), Nat.mod_add, (Nat.mod_small (b mod 8)) by lia. rewrite <- D8.
    rewrite andb_comm. f_equal. rewrite Z.testbit_ones_nonneg by lia. apply eq_true_iff_eq. rewrite Z.ltb_lt, Nat.ltb_lt. lia.
  - rewrite St. f_equal. f_equal. apply eq_true_iff_eq. rewrite !Nat.ltb_lt.
    assert (Q : (b / 8 / 8 <> i)%nat) by (rewrite <- E1; exact E). set (q := (b / 8 / 8)%nat) in *. clearbody q. lia.
Qed.

(** ** Absorbing *)
Definition roundup (n : nat) : nat := ((n + 7) / 8 * 8)%nat.
Lemma roundup_ok : forall n, (n <= roundup n < n + 8)%nat.
Proof. intro n. unfold roundup. pose proof (Nat.div_mod (n + 7) 8 ltac:(lia)). pose proof (Nat.mod_upper_bound (n + 7) 8 ltac:(lia)). lia. Qed.
Lemma roundup_sub : forall n q, (8 * q <= n)%nat -> roundup (n - 8 * q) = (roundup n - 8 * q)%nat.
Proof.
  intros n q H. unfold roundup. replace (n + 7)%nat with (n - 8 * q + 7 + q * 8)%nat by lia. rewrite Nat.div_add by lia. lia.
Qed.
Definition regs_ok (regs : list vec) : Prop := length regs = 16%nat /\ Forall okv regs.
Definition bufs_ok (ins : list bytes) : Prop := length ins = 4%nat /\ Forall is_bytes ins.
Lemma buf_bytes : forall ins j, bufs_ok ins -> is_bytes (buf ins j).
Proof.
  intros ins j [L F]. unfold buf. rewrite Forall_forall in F. destruct (nth_in_or_default j ins []) as [H | H]; [apply F, H|rewrite H; constructor].
Qed.
Lemma loop4_ok : forall regs r ins, regs_ok regs -> rate r -> bufs_ok ins -> forall fuel n pos s, (n < fuel)%nat -> okst s ->
  (forall j, (j < 4)%nat -> (pos + roundup n <= length (buf ins j))%nat) ->
  exists n' pos' s', absorb4_loop fuel regs r ins n pos s = CRet (n', pos', s') /\ okst s' /\ (n' < r)%nat /\
    (forall j, (j < 4)%nat -> (pos' + roundup n' <= length (buf ins j))%nat) /\
    forall j, (j < 4)%nat -> ab r (lane_of s j) (firstn n (skipn pos (buf ins j))) = (lane_of s' j, firstn n' (skipn pos' (buf ins j))).
Proof.
  intros regs r ins [Rg1 Rg2] R B fuel. assert (RB := rate_bounds r R). induction fuel as [|f IH]; intros n pos s F O H; [lia|]. cbn [absorb4_loop].
  assert (LF : forall j, (j < 4)%nat -> length (firstn n (skipn pos (buf ins j))) = n).
  { intros j J. rewrite firstn_length, skipn_length. specialize (H j J). pose proof (roundup_ok n). lia. }
  destruct (Nat.leb_spec r n) as [C | C].
  - destruct R as (q & Q & Q1). assert (Dq : (r / 8 = q)%nat) by (rewrite Q, Nat.mul_comm, Nat.div_mul by lia; reflexivity). rewrite Dq.
    destruct (xor_gather_ok ins pos q 0 s (proj1 B)) as (s1 & E1 & O1 & H1); [|lia|exact O|].
    { intros j J. specialize (H j J). pose proof (roundup_ok n). lia. }
    rewrite Nat.mul_0_r, Nat.add_0_r in E1. rewrite E1. cbn [cbind].
    destruct (f1600x4_ok regs s1 Rg1 Rg2 O1) as (s2 & E2 & O2 & H2). rewrite E2. cbn [cbind].
    destruct (IH (n - r)%nat (pos + 8 * q)%nat s2 ltac:(lia) O2) as (n' & pos' & s' & E' & O' & L' & H' & A').
    { intros j J. specialize (H j J). rewrite Q, roundup_sub by lia. pose proof (roundup_ok n). lia. }
    exists n', pos', s'. split; [exact E'|]. split; [exact O'|]. split; [exact L'|]. split; [exact H'|]. intros j J.
    rewrite ab_ge by (rewrite ?(LF j J); lia). rewrite <- (A' j J). rewrite (H2 j J), (H1 j J).
    rewrite xor_lanes_at by (first [apply lane_of_wf; assumption | apply is_bytes_skipn, buf_bytes, B | lia]). rewrite <- Q.
    f_equal.
    + f_equal. apply xor_at_firstn. rewrite firstn_firstn, Nat.min_l by lia. reflexivity.
    + rewrite skipn_firstn_comm, skipn_skipn. reflexivity.
  - exists n, pos, s. split; [reflexivity|]. split; [exact O|]. split; [exact C|]. split; [exact H|]. intros j J. apply ab_lt. rewrite (LF j J). exact C.
Qed.
Lemma okst_zero : okst (repeat zero4 25).
Proof. split; [reflexivity|]. apply Forall_forall. intros x X. apply repeat_spec in X. subst x. apply zero4_ok. Qed.
Lemma lane_zero : forall j, lane_of (repeat zero4 25) j = zero_state.
Proof. intro j. do 4 (destruct j as [|j]; [reflexivity|]). destruct j; reflexivity. Qed.
(** [keccakx4_absorb_once] reads the buffers up to the next multiple of 8 bytes, no further; lane j
    ends in the state of fips202.c's [keccak_absorb] on the [inlen] first bytes of buffer j. *)
Theorem absorb_once_ok : forall regs r ins inlen p, regs_ok regs -> rate r -> bufs_ok ins -> 0 <= p < 128 ->
  (forall j, (j < 4)%nat -> (roundup inlen <= length (buf ins j))%nat) ->
  exists s, keccakx4_absorb_once regs r ins inlen p = CRet s /\ okst s /\
    forall j, (j < 4)%nat -> lane_of s j = padstate r p (firstn inlen (buf ins j)).
Proof.
  intros regs r ins inlen p Rg R B P H. assert (RB := rate_bounds r R). unfold keccakx4_absorb_once.
  destruct (loop4_ok regs r ins Rg R B (S inlen) inlen 0 (repeat zero4 25) ltac:(lia) okst_zero H) as (n & pos & s & E & O & N & H' & A).
  rewrite E. cbn [cbind]. clear E. set (i := (n / 8)%nat).
  assert (I : (8 * i <= n < 8 * i + 8)%nat). { unfold i. pose proof (Nat.div_mod n 8 ltac:(lia)). pose proof (Nat.mod_upper_bound n 8 ltac:(lia)). lia. }
  assert (NM : (n mod 8 = n - 8 * i)%nat). { unfold i. pose proof (Nat.div_mod n 8 ltac:(lia)). lia. }
  destruct R as (q & Q & Q1).
  destruct (xor_gather_ok ins pos i 0 s (proj1 B)) as (s1 & E1 & O1 & H1); [|lia|exact O|].
  { intros j J. specialize (H' j J). pose proof (roundup_ok n). lia. }
  rewrite Nat.mul_0_r, Nat.add_0_r in E1. rewrite E1. cbn [cbind]. clear E1.
  assert (X1 : forall j, (j < 4)%nat -> lane_of s1 j = xor_at (lane_of s j) 0 (skipn pos (buf ins j)) (8 * i)).
  { intros j J. rewrite (H1 j J). apply xor_lanes_at; [apply lane_of_wf, O|apply is_bytes_skipn, buf_bytes, B|lia]. }
  assert (T : exists s2, (if (n - 8 * i =? 0)%nat then CRet s1
           else do t <- gather ins (pos + 8 * i) ;;
                let m := u64 (Z.shiftl 1 (8 * Z.of_nat (n - 8 * i))) - 1 in
                CRet (put s1 i (map2 Z.lxor (nth i s1 zero4) (map (fun x => Z.land x m) t)))) = CRet s2 /\ okst s2 /\
           forall j, (j < 4)%nat -> lane_of s2 j = xor_at (lane_of s j) 0 (skipn pos (buf ins j)) n).
  { destruct (Nat.eqb_spec (n - 8 * i) 0) as [Z0 | Z0].
    - exists s1. split; [reflexivity|]. split; [exact O1|]. intros j J. rewrite (X1 j J). f_equal. lia.
    - destruct (gather_ok ins (pos + 8 * i) (proj1 B)) as (t & Et & Ot & Ht).
      { intros j J. specialize (H' j J). assert (U : roundup n = (8 * i + 8)%nat); [|lia].
        pose proof (roundup_ok n). unfold roundup in *. lia. }
      rewrite Et. cbn [cbind]. set (m := u64 (Z.shiftl 1 (8 * Z.of_nat (n - 8 * i))) - 1).
      destruct (xor_put s1 i (map (fun x => Z.land x m) t) O1) as [O2 H2]; [apply map_okv; [|exact Ot]|lia|].
      { intros x X. rewrite Z.land_comm. apply land_w, X. }
      eexists. split; [reflexivity|]. split; [exact O2|]. intros j J. rewrite (H2 j J), nth_map_4 by (apply Ot || exact J). rewrite (Ht j J), (X1 j J).
      rewrite <- skipn_skipn. unfold m. rewrite masked_word by (first [apply lane_of_wf, O | apply is_bytes_skipn, buf_bytes, B | lia]). f_equal. lia. }
  destruct T as (s2 & E2 & O2 & H2). cbv zeta in E2 |- *. rewrite E2. cbn [cbind]. clear E2 X1 H1 O1 s1.
  destruct (xor_put s2 i (repeat (u64 (Z.shiftl p (8 * Z.of_nat (n - 8 * i)))) 4) O2) as [O3 H3]; [apply repeat_okv, u64_w|lia|].
  set (s3 := put s2 i _) in *.
  assert (Dq : (r / 8 - 1 = q - 1)%nat) by (rewrite Q, Nat.mul_comm, Nat.div_mul by lia; reflexivity). rewrite Dq.
  destruct (xor_put s3 (q - 1) (repeat (u64 (Z.shiftl 1 63)) 4) O3) as [O4 H4]; [apply repeat_okv, u64_w|lia|].
  eexists. split; [reflexivity|]. split; [exact O4|]. intros j J. rewrite (H4 j J), (H3 j J), (H2 j J). clearbody s3. clear H4 H3 H2 O4 O3 O2 s3 s2.
  assert (NR : forall x, nth j (repeat x 4) 0 = x) by (intro x; do 4 (destruct j as [|j]; [reflexivity|]); lia). rewrite !NR.
  unfold padstate. rewrite <- (lane_zero j). assert (A' := A j J). cbn [skipn] in A'. rewrite A'. clear A A'.
  assert (LR : length (firstn n (skipn pos (buf ins j))) = n).
  { rewrite firstn_length, skipn_length. specialize (H' j J). pose proof (roundup_ok n). lia. }
  rewrite <- finalize_eq; [|lia|apply lane_of_wf, O|apply is_bytes_firstn, is_bytes_skipn, buf_bytes, B|rewrite LR; exact N|exact P].
  rewrite LR. rewrite (xor_at_firstn (lane_of s j) (firstn n (skipn pos (buf ins j))) (skipn pos (buf ins j)) n) by (rewrite firstn_firstn, Nat.min_id; reflexivity).
  unfold xor_byte. fold i. rewrite NM.
  assert (D1 : ((r - 1) / 8 = q - 1)%nat). { symmetry. apply (Nat.div_unique _ 8 _ 7); lia. }
  assert (D2 : ((r - 1) mod 8 = 7)%nat). { symmetry. apply (Nat.mod_unique _ 8 (q - 1)); lia. }
  rewrite D1, D2. reflexivity.
Qed.

(** ** Squeezing *)
Lemma out_block_lane : forall r s j, (j < 4)%nat -> nth j (out_block r s) [] = flat_map store64 (firstn (r / 8) (lane_of s j)).
Proof.
  intros r s j J. unfold out_block.
  assert (E : flat_map store64 (firstn (r / 8) (lane_of s j)) = flat_map (fun v => store64 (nth j v 0)) (firstn (r / 8) s)).
  { assert (G : forall l : list vec, flat_map store64 (map (fun v => nth j v 0) l) = flat_map (fun v => store64 (nth j v 0)) l).
    { intro l. induction l as [|v l IH]; [reflexivity|]. cbn [map flat_map]. rewrite IH. reflexivity. }
    unfold lane_of. rewrite firstn_map. apply G. }
  rewrite E. do 4 (destruct j as [|j]; [reflexivity|]). lia.
Qed.
Lemma nth_app4 : forall (a b : list bytes) j, length a = 4%nat -> length b = 4%nat -> (j < 4)%nat -> nth j (map2 (@app Z) a b) [] = nth j a [] ++ nth j b [].
Proof.
  intros a b j La Lb J. destruct a as [|a0 [|a1 [|a2 [|a3 [|]]]]]; try discriminate La. destruct b as [|b0 [|b1 [|b2 [|b3 [|]]]]]; try discriminate Lb.
  do 4 (destruct j as [|j]; [reflexivity|]). lia.
Qed.
(** [keccakx4_squeezeblocks] is [keccak_squeezeblocks] of fips202.c in every lane. *)
Theorem squeezeblocks4_ok : forall regs r, regs_ok regs -> rate r -> forall n s, okst s ->
  exists o s', keccakx4_squeezeblocks regs n r s = CRet (o, s') /\ okst s' /\ length o = 4%nat /\
    forall j, (j < 4)%nat -> (nth j o [], lane_of s' j) = keccak_squeezeblocks n r (lane_of s j).
Proof.
  intros regs r [Rg1 Rg2] R n. induction n as [|n IH]; intros s O; cbn [keccakx4_squeezeblocks].
  - exists (repeat [] 4), s. split; [reflexivity|]. split; [exact O|]. split; [reflexivity|]. intros j J. cbn [keccak_squeezeblocks].
    f_equal. do 4 (destruct j as [|j]; [reflexivity|]). lia.
  - destruct (f1600x4_ok regs s Rg1 Rg2 O) as (s1 & E1 & O1 & H1). rewrite E1. cbn [cbind].
    destruct (IH s1 O1) as (o & s' & E & O' & L & H). rewrite E. cbn [cbind]. eexists. exists s'. split; [reflexivity|]. split; [exact O'|].
    assert (LB : length (out_block r s1) = 4%nat) by reflexivity.
    split; [rewrite map2_length, L, LB; reflexivity|]. intros j J. cbn [keccak_squeezeblocks]. rewrite nth_app4 by assumption.
    rewrite out_block_lane by exact J. rewrite <- (H1 j J). rewrite <- (H j J). reflexivity.
Qed.

(** ** SHAKE128 and SHAKE256, four at a time *)
Lemma list4_ext : forall (a : list bytes) (f : bytes -> bytes) ins, length a = 4%nat -> length ins = 4%nat ->
  (forall j, (j < 4)%nat -> nth j a [] = f (buf ins j)) -> a = map f ins.
Proof.
  intros a f ins La Li H. destruct a as [|a0 [|a1 [|a2 [|a3 [|]]]]]; try discriminate La. destruct ins as [|b0 [|b1 [|b2 [|b3 [|]]]]]; try discriminate Li.
  assert (H0 := H 0%nat ltac:(lia)). assert (H1 := H 1%nat ltac:(lia)). assert (H2 := H 2%nat ltac:(lia)). assert (H3 := H 3%nat ltac:(lia)).
  cbn [buf nth] in H0, H1, H2, H3. cbn [map]. rewrite H0, H1, H2, H3. reflexivity.
Qed.
Lemma map2_length4 : forall {A B C} (f : A -> B -> C) a b, length a = 4%nat -> length b = 4%nat -> length (map2 f a b) = 4%nat.
Proof. intros A B C f a b La Lb. rewrite map2_length, La, Lb. reflexivity. Qed.
Theorem shakex4_ok : forall regs r outlen ins inlen, regs_ok regs -> rate r -> bufs_ok ins ->
  (forall b, In b ins -> (roundup inlen <= length b)%nat) ->
  c_shakex4 regs r outlen ins inlen = CRet (map (fun b => c_shake r outlen (firstn inlen b)) ins).
Proof.
  intros regs r outlen ins inlen Rg R B H. assert (RB := rate_bounds r R).
  assert (H' : forall j, (j < 4)%nat -> (roundup inlen <= length (buf ins j))%nat) by (intros j J; apply H, nth_In; rewrite (proj1 B); exact J).
  destruct (absorb_once_ok regs r ins inlen 31 Rg R B ltac:(lia) H') as (s & E & O & Hs). unfold c_shakex4. rewrite E. cbn [cbind]. clear E.
  destruct (squeezeblocks4_ok regs r Rg R (outlen / r) s O) as (o & s' & E & O' & L & Ho). rewrite E. cbn [cbind]. clear E. cbv zeta.
  assert (K : forall j, keccak_absorb r (firstn inlen (buf ins j)) 31 = padstate r 31 (firstn inlen (buf ins j))).
  { intro j. apply finalize_any; [exact R|apply is_bytes_firstn, buf_bytes, B|lia]. }
  destruct (Nat.eqb_spec (outlen - outlen / r * r) 0) as [Z0 | Z0].
  - do 1 f_equal. apply list4_ext; [exact L|apply B|]. intros j J. unfold c_shake. rewrite K, <- (Hs j J), <- (Ho j J).
    destruct (outlen - outlen / r * r)%nat; [reflexivity|lia].
  - destruct (squeezeblocks4_ok regs r Rg R 1 s' O') as (t & s'' & E & _ & Lt & Ht). rewrite E. cbn [cbind]. clear E.
    do 1 f_equal. apply list4_ext; [apply map2_length4; assumption|apply B|]. intros j J. unfold c_shake. rewrite K, <- (Hs j J), <- (Ho j J), <- (Ht j J).
    assert (EN : nth j (map2 (fun a b => a ++ firstn (outlen - outlen / r * r) b) o t) [] = nth j o [] ++ firstn (outlen - outlen / r * r) (nth j t [])).
    { destruct o as [|a0 [|a1 [|a2 [|a3 [|]]]]]; try discriminate L. destruct t as [|b0 [|b1 [|b2 [|b3 [|]]]]]; try discriminate Lt.
      clear - J. do 4 (destruct j as [|j]; [reflexivity|]). lia. }
    rewrite EN. destruct (outlen - outlen / r * r)%nat; [lia|reflexivity].
Qed.
(** The outputs of shake128x4 and shake256x4 are those FIPS 202 prescribes for the four inputs; the
    functions read no byte past the next multiple of 8, whatever the rest of the buffers holds. *)
Theorem shake128x4_fips202 : forall regs outlen ins inlen, regs_ok regs -> bufs_ok ins -> (forall b, In b ins -> (roundup inlen <= length b)%nat) ->
  exists o, c_shakex4 regs R_SHAKE128 outlen ins inlen = CRet o /\ length o = 4%nat /\
    forall j, (j < 4)%nat -> is_xof SHAKE128 (firstn inlen (buf ins j)) outlen (nth j o []).
Proof.
  intros regs outlen ins inlen Rg B H. eexists. split; [apply shakex4_ok; [exact Rg|exact rate168|exact B|exact H]|].
  split; [rewrite map_length; apply B|]. intros j J. rewrite (nth_indep _ [] (c_shake R_SHAKE128 outlen (firstn inlen []))) by (rewrite map_length, (proj1 B); exact J).
  rewrite (map_nth (fun b => c_shake R_SHAKE128 outlen (firstn inlen b))). apply shake128_fips202. apply is_bytes_firstn, (buf_bytes ins j B).
Qed.
Theorem shake256x4_fips202 : forall regs outlen ins inlen, regs_ok regs -> bufs_ok ins -> (forall b, In b ins -> (roundup inlen <= length b)%nat) ->
  exists o, c_shakex4 regs R_SHAKE256 outlen ins inlen = CRet o /\ length o = 4%nat /\
    forall j, (j < 4)%nat -> is_xof SHAKE256 (firstn inlen (buf ins j)) outlen (nth j o []).
Proof.
  intros regs outlen ins inlen Rg B H. eexists. split; [apply shakex4_ok; [exact Rg|exact rate136|exact B|exact H]|].
  split; [rewrite map_length; apply B|]. intros j J. rewrite (nth_indep _ [] (c_shake R_SHAKE256 outlen (firstn inlen []))) by (rewrite map_length, (proj1 B); exact J).
  rewrite (map_nth (fun b => c_shake R_SHAKE256 outlen (firstn inlen b))). apply shake256_fips202. apply is_bytes_firstn, (buf_bytes ins j B).
Qed.
