(** * A64Fips: the two-way SHAKE of the AArch64 build
    (pqclean/crypto_sign/dilithium2/aarch64/fips202x2.c 380-694) is two SHAKEs of FIPS 202. *)
From Coq Require Import ZArith List Lia Bool.
From Verif Require Import Base DilArith DilNtt Keccak KeccakSpec KeccakPerm KeccakSponge KeccakProps PropsKeccak KeccakX4 KeccakX4Ok FipsX4Ok A64Keccak.
Import ListNotations.
Open Scope Z_scope.

(** ** The code *)
(** The intrinsics that move data: vld1_u64, vld1q_u64, vld1q_u64_x2 at [pos] (undefined outside the
    buffer), vzip1q, vzip2q, vuzp1q, vuzp2q, vcombine, vget_low, vget_high, vst1.. *)
Definition ld1 (b : bytes) (pos : nat) : crun Z := if (pos + 8 <=? length b)%nat then CRet (load64 (firstn 8 (skipn pos b))) else CUB.
Definition ld1q (b : bytes) (pos : nat) : crun v128 := do x <- ld1 b pos ;; do y <- ld1 b (pos + 8) ;; CRet (x, y).
Definition ld1q_x2 (b : bytes) (pos : nat) : crun (v128 * v128) := do x <- ld1q b pos ;; do y <- ld1q b (pos + 16) ;; CRet (x, y).
Definition zip1 (a b : v128) : v128 := (fst a, fst b).
Definition zip2 (a b : v128) : v128 := (snd a, snd b).
Definition uzp1 (a b : v128) : v128 := (fst a, fst b).
Definition uzp2 (a b : v128) : v128 := (snd a, snd b).
Definition vcombine (a b : Z) : v128 := (a, b).
Definition st1q (v : v128) : bytes := store64 (fst v) ++ store64 (snd v).
Definition veor (a b : v128) : v128 := (Z.lxor (fst a) (fst b), Z.lxor (snd a) (snd b)).
Definition vand (a b : v128) : v128 := (Z.land (fst a) (fst b), Z.land (snd a) (snd b)).
Definition vdup (x : Z) : v128 := (x, x).
Definition v0 : v128 := (0, 0).
(** vxor(s[i], s[i], t). *)
Definition xor_in (s : list v128) (i : nat) (t : v128) : list v128 := put s i (veor (nth i s v0) t).
(** 414-429: the loop over four words at a time; n passes. *)
Fixpoint quads (in0 in1 : bytes) (n i pos : nat) (s : list v128) : crun (nat * list v128) :=
  match n with
  | O => CRet (pos, s)
  | S n' =>
      do (a20, a21) <- ld1q_x2 in0 pos ;;
      do (b20, b21) <- ld1q_x2 in1 pos ;;
      let s := xor_in s i (zip1 a20 b20) in
      let s := xor_in s (i + 1) (zip2 a20 b20) in
      let s := xor_in s (i + 2) (zip1 a21 b21) in
      let s := xor_in s (i + 3) (zip2 a21 b21) in
      quads in0 in1 n' (i + 4) (pos + 32) s
  end.
(** The number of passes of for (i = 0; i < r / 8 - 1; i += 4). *)
Definition passes (r : nat) : nat := ((r / 8 - 1 + 3) / 4)%nat.
(** 413-440: while (inlen >= r); the bytes left, the position and the state. *)
Fixpoint full_blocks (fuel : nat) (b : build) (r : nat) (in0 in1 : bytes) (inlen pos : nat) (s : list v128) : crun (nat * nat * list v128) :=
  match fuel with
  | O => CFuel
  | S f =>
      if (r <=? inlen)%nat then
        do (pos, s) <- quads in0 in1 (passes r) 0 pos s ;;
        do x <- ld1 in0 pos ;;
        do y <- ld1 in1 pos ;;
        let s := xor_in s (r / 8 - 1) (vcombine x y) in
        do s <- StatePermutex2 b s ;;
        full_blocks f b r in0 in1 (inlen - r) (pos + 8) s
      else CRet (inlen, pos, s)
  end.
(** 442-457: while (inlen >= 16). *)
Fixpoint pairs (fuel : nat) (in0 in1 : bytes) (inlen i pos : nat) (s : list v128) : crun (nat * nat * nat * list v128) :=
  match fuel with
  | O => CFuel
  | S f =>
      if (16 <=? inlen)%nat then
        do a1 <- ld1q in0 pos ;;
        do b1 <- ld1q in1 pos ;;
        let s := xor_in s i (zip1 a1 b1) in
        let s := xor_in s (i + 1) (zip2 a1 b1) in
        pairs f in0 in1 (inlen - 16) (i + 2) (pos + 16) s
      else CRet (inlen, i, pos, s)
  end.
(** 392-483: [keccakx2_absorb]. *)
Definition keccakx2_absorb (b : build) (r : nat) (in0 in1 : bytes) (inlen : nat) (p : Z) : crun (list v128) :=
  do st <- full_blocks (S inlen) b r in0 in1 inlen 0 (repeat v0 25) ;;
  let '(inlen, pos, s) := st in
  do st <- pairs (S inlen) in0 in1 inlen 0 pos s ;;
  let '(inlen, i, pos, s) := st in
  do st <- (if (8 <=? inlen)%nat then
              do x <- ld1 in0 pos ;;
              do y <- ld1 in1 pos ;;
              CRet ((inlen - 8)%nat, (i + 1)%nat, (pos + 8)%nat, xor_in s i (vcombine x y))
            else CRet (inlen, i, pos, s)) ;;
  let '(inlen, i, pos, s) := st in
  do s <- (if (inlen =? 0)%nat then CRet s
           else do x <- ld1 in0 pos ;;
                do y <- ld1 in1 pos ;;
                let mask := vdup (u64 (Z.shiftl 1 (8 * Z.of_nat inlen)) - 1) in
                CRet (xor_in s i (vand (vcombine x y) mask))) ;;
  let s := xor_in s i (vdup (u64 (Z.shiftl p (8 * Z.of_nat inlen)))) in
  CRet (xor_in s (r / 8 - 1) (vdup (u64 (Z.shiftl 1 63)))).
(** 511-521: what n passes of the loop write to the two outputs. *)
Fixpoint out_quads (n i : nat) (s : list v128) : bytes * bytes :=
  match n with
  | O => ([], [])
  | S n' =>
      let a0 := uzp1 (nth i s v0) (nth (i + 1) s v0) in
      let b0 := uzp2 (nth i s v0) (nth (i + 1) s v0) in
      let a1 := uzp1 (nth (i + 2) s v0) (nth (i + 3) s v0) in
      let b1 := uzp2 (nth (i + 2) s v0) (nth (i + 3) s v0) in
      let '(o0, o1) := out_quads n' (i + 4) s in
      ((st1q a0 ++ st1q a1) ++ o0, (st1q b0 ++ st1q b1) ++ o1)
  end.
(** 510-531. *)
Definition out_block2 (r : nat) (s : list v128) : bytes * bytes :=
  let '(o0, o1) := out_quads (passes r) 0 s in
  (o0 ++ store64 (fst (nth (r / 8 - 1) s v0)), o1 ++ store64 (snd (nth (r / 8 - 1) s v0))).
(** 497-535: [keccakx2_squeezeblocks]: the bytes written to out0 and out1, and the state. *)
Fixpoint keccakx2_squeezeblocks (b : build) (nblocks r : nat) (s : list v128) : crun (bytes * bytes * list v128) :=
  match nblocks with
  | O => CRet ([], [], s)
  | S n =>
      do s <- StatePermutex2 b s ;;
      do st <- keccakx2_squeezeblocks b n r s ;;
      let '(t0, t1, s') := st in
      let '(o0, o1) := out_block2 r s in
      CRet (o0 ++ t0, o1 ++ t1, s')
  end.
(** 548-611. *)
Definition shake128x2_absorb (b : build) (in0 in1 : bytes) (inlen : nat) := keccakx2_absorb b R_SHAKE128 in0 in1 inlen 31.
Definition shake128x2_squeezeblocks (b : build) (nblocks : nat) (s : list v128) := keccakx2_squeezeblocks b nblocks R_SHAKE128 s.
Definition shake256x2_absorb (b : build) (in0 in1 : bytes) (inlen : nat) := keccakx2_absorb b R_SHAKE256 in0 in1 inlen 31.
Definition shake256x2_squeezeblocks (b : build) (nblocks : nat) (s : list v128) := keccakx2_squeezeblocks b nblocks R_SHAKE256 s.
(** 623-650 and 662-689: [shake128x2], [shake256x2]. *)
Definition c_shakex2 (b : build) (r outlen : nat) (in0 in1 : bytes) (inlen : nat) : crun (bytes * bytes) :=
  let nblocks := (outlen / r)%nat in
  do s <- keccakx2_absorb b r in0 in1 inlen 31 ;;
  do st <- keccakx2_squeezeblocks b nblocks r s ;;
  let '(o0, o1, s) := st in
  let outlen := (outlen - nblocks * r)%nat in
  if (outlen =? 0)%nat then CRet (o0, o1)
  else do st <- keccakx2_squeezeblocks b 1 r s ;;
       let '(t0, t1, _) := st in
       CRet (o0 ++ firstn outlen t0, o1 ++ firstn outlen t1).

(** ** Lanes *)
Local Opaque StatePermute keccak_f StatePermutex2 load64 store64.
Lemma lane2_put : forall s i v j, lane2 j (put s i v) = upd (lane2 j s) i (sel j v).
Proof.
  unfold lane2. induction s as [|h s IH]; intros i v j; [destruct i; reflexivity|]. destruct i as [|i]; [reflexivity|].
  cbn [put map]. rewrite IH. reflexivity.
Qed.
Lemma lane2_nth : forall s i j, nth i (lane2 j s) 0 = sel j (nth i s v0).
Proof. intros s i j. unfold lane2. assert (E : 0 = sel j v0) by (destruct j; reflexivity). rewrite E. apply map_nth. Qed.
Lemma sel_veor : forall j a b, sel j (veor a b) = Z.lxor (sel j a) (sel j b). Proof. intros [] a b; reflexivity. Qed.
Lemma xor_in_lane : forall s i t j, lane2 j (xor_in s i t) = upd (lane2 j s) i (Z.lxor (nth i (lane2 j s) 0) (sel j t)).
Proof. intros. unfold xor_in. rewrite lane2_put, sel_veor, lane2_nth. reflexivity. Qed.
Lemma ok2_ext : forall s s', ok2 s -> (forall j, wf (lane2 j s) -> wf (lane2 j s')) -> ok2 s'.
Proof. intros s s' H F j. apply F, H. Qed.
Definition two (in0 in1 : bytes) (j : bool) : bytes := if j then in1 else in0.
Lemma ld1_ok : forall b pos, (pos + 8 <= length b)%nat -> ld1 b pos = CRet (load64 (firstn 8 (skipn pos b))).
Proof. intros b pos H. unfold ld1. rewrite (proj2 (Nat.leb_le _ _) H). reflexivity. Qed.
Lemma ld1q_ok : forall b pos, (pos + 16 <= length b)%nat ->
  ld1q b pos = CRet (load64 (firstn 8 (skipn pos b)), load64 (firstn 8 (skipn (pos + 8) b))).
Proof. intros b pos H. unfold ld1q. rewrite (ld1_ok b pos) by lia. cbn [cbind]. rewrite (ld1_ok b (pos + 8)) by lia. reflexivity. Qed.
Lemma ld1q_x2_ok : forall b pos, (pos + 32 <= length b)%nat ->
  ld1q_x2 b pos = CRet ((load64 (firstn 8 (skipn pos b)), load64 (firstn 8 (skipn (pos + 8) b))),
                        (load64 (firstn 8 (skipn (pos + 16) b)), load64 (firstn 8 (skipn (pos + 16 + 8) b)))).
Proof. intros b pos H. unfold ld1q_x2. rewrite (ld1q_ok b pos) by lia. cbn [cbind]. rewrite (ld1q_ok b (pos + 16)) by lia. reflexivity. Qed.
Lemma xor_lanes_S : forall m i n s, xor_lanes m i (S n) s = xor_lanes m (S i) n (upd s i (Z.lxor (nth i s 0) (load64 (firstn 8 (skipn (8 * i) m))))).
Proof. reflexivity. Qed.
Lemma xor_lanes_O : forall m i s, xor_lanes m i 0 s = s. Proof. reflexivity. Qed.
Lemma xor_lanes_add : forall m i a b s, xor_lanes m i (a + b) s = xor_lanes m (i + a) b (xor_lanes m i a s).
Proof. intros. unfold xor_lanes. rewrite seq_app, fold_left_app. reflexivity. Qed.
Lemma xor_lanes_wf : forall m n i s, wf s -> wf (xor_lanes m i n s).
Proof.
  intros m n. induction n as [|n IH]; intros i s W; [exact W|]. rewrite xor_lanes_S. apply IH. apply upd_wf; [exact W|].
  apply lxor_w; [apply nth_w, W|apply load64_w].
Qed.
Local Opaque xor_lanes.
(** One word of each input. *)
Definition word_at (in0 in1 : bytes) (pos : nat) : v128 := (load64 (firstn 8 (skipn pos in0)), load64 (firstn 8 (skipn pos in1))).
Lemma word_lane : forall in0 in1 pos i j, sel j (word_at in0 in1 (pos + 8 * i)) = load64 (firstn 8 (skipn (8 * i) (skipn pos (two in0 in1 j)))).
Proof. intros. unfold word_at. rewrite skipn_skipn. destruct j; reflexivity. Qed.
Lemma xor_word : forall in0 in1 pos i s j,
  lane2 j (xor_in s i (word_at in0 in1 (pos + 8 * i))) = xor_lanes (skipn pos (two in0 in1 j)) i 1 (lane2 j s).
Proof. intros. rewrite xor_lanes_S, xor_lanes_O, xor_in_lane, word_lane. reflexivity. Qed.
Lemma quads_ok : forall in0 in1 pos n i s, (forall j, (pos + 8 * (i + 4 * n) <= length (two in0 in1 j))%nat) ->
  exists s', quads in0 in1 n i (pos + 8 * i) s = CRet ((pos + 8 * (i + 4 * n))%nat, s') /\
    forall j, lane2 j s' = xor_lanes (skipn pos (two in0 in1 j)) i (4 * n) (lane2 j s).
Proof.
  intros in0 in1 pos n. induction n as [|n IH]; intros i s H.
  - exists s. rewrite Nat.mul_0_r, Nat.add_0_r. split; [reflexivity|]. intro j. reflexivity.
  - assert (H0 := H false). assert (H1 := H true). cbn [two] in H0, H1. cbn [quads].
    rewrite (ld1q_x2_ok in0) by lia. cbn [cbind]. rewrite (ld1q_x2_ok in1) by lia. cbn [cbind]. cbv zeta.
    set (s4 := xor_in (xor_in (xor_in (xor_in s i _) (i + 1) _) (i + 2) _) (i + 3) _).
    assert (E4 : s4 = xor_in (xor_in (xor_in (xor_in s i (word_at in0 in1 (pos + 8 * i))) (i + 1) (word_at in0 in1 (pos + 8 * (i + 1))))
                        (i + 2) (word_at in0 in1 (pos + 8 * (i + 2)))) (i + 3) (word_at in0 in1 (pos + 8 * (i + 3)))).
    { unfold s4, zip1, zip2, word_at. cbn [fst snd].
      replace (pos + 8 * (i + 1))%nat with (pos + 8 * i + 8)%nat by lia.
      replace (pos + 8 * (i + 2))%nat with (pos + 8 * i + 16)%nat by lia.
      replace (pos + 8 * (i + 3))%nat with (pos + 8 * i + 16 + 8)%nat by lia. reflexivity. }
    clearbody s4. subst s4. set (s4 := xor_in _ (i + 3) _).
    assert (L4 : forall j, lane2 j s4 = xor_lanes (skipn pos (two in0 in1 j)) i 4 (lane2 j s)).
    { intro j. unfold s4. rewrite !xor_word. change 4%nat with (1 + (1 + (1 + 1)))%nat. rewrite !xor_lanes_add.
      replace (i + 1 + 1 + 1)%nat with (i + 3)%nat by lia. replace (i + 1 + 1)%nat with (i + 2)%nat by lia. reflexivity. }
    clearbody s4. destruct (IH (i + 4)%nat s4) as (s' & E & L).
    { intro j. specialize (H j). lia. }
    replace (pos + 8 * i + 32)%nat with (pos + 8 * (i + 4))%nat by lia. rewrite E. exists s'. split.
    + f_equal. f_equal. lia.
    + intro j. rewrite L, L4. replace (4 * S n)%nat with (4 + 4 * n)%nat by lia. rewrite xor_lanes_add. reflexivity.
Qed.
(** The two rates. *)
Definition rate2 (r : nat) : Prop := (r = 8 * (4 * passes r + 1) /\ passes r <= 5)%nat.
Lemma rate2_128 : rate2 R_SHAKE128. Proof. split; [reflexivity|]. unfold R_SHAKE128, passes. cbn. lia. Qed.
Lemma rate2_256 : rate2 R_SHAKE256. Proof. split; [reflexivity|]. unfold R_SHAKE256, passes. cbn. lia. Qed.
Lemma rate2_rate : forall r, rate2 r -> rate r.
Proof. intros r [E L]. exists (4 * passes r + 1)%nat. lia. Qed.
Lemma rate2_words : forall r, rate2 r -> (r / 8 = 4 * passes r + 1)%nat.
Proof. intros r [E _]. set (n := passes r) in *. clearbody n. rewrite E, Nat.mul_comm. apply Nat.div_mul. lia. Qed.

(** ** Absorbing *)
Lemma full_ok : forall b r in0 in1, junk_ok b -> rate2 r -> (forall j, is_bytes (two in0 in1 j)) -> forall fuel n pos s, (n < fuel)%nat -> ok2 s ->
  (forall j, (pos + roundup n <= length (two in0 in1 j))%nat) ->
  exists n' pos' s', full_blocks fuel b r in0 in1 n pos s = CRet (n', pos', s') /\ ok2 s' /\ (n' < r)%nat /\
    (forall j, (pos' + roundup n' <= length (two in0 in1 j))%nat) /\
    forall j, ab r (lane2 j s) (firstn n (skipn pos (two in0 in1 j))) = (lane2 j s', firstn n' (skipn pos' (two in0 in1 j))).
Proof.
  intros b r in0 in1 Jb R B fuel. assert (RB := rate_bounds r (rate2_rate r R)). assert (R8 := rate2_words r R). assert (RE := proj1 R). assert (R5 := proj2 R).
  set (q := passes r) in *. assert (Eq : passes r = q) by reflexivity. clearbody q.
  induction fuel as [|f IH]; intros n pos s F O H; [lia|]. cbn [full_blocks].
  assert (LF : forall j, length (firstn n (skipn pos (two in0 in1 j))) = n).
  { intro j. rewrite firstn_length, skipn_length. specialize (H j). pose proof (roundup_ok n). lia. }
  destruct (Nat.leb_spec r n) as [C|C].
  - assert (RU := roundup_ok n). rewrite Eq.
    destruct (quads_ok in0 in1 pos q 0 s) as (s1 & E1 & L1). { intro j. specialize (H j). lia. }
    rewrite Nat.mul_0_r, Nat.add_0_r in E1. rewrite E1. cbn [cbind]. rewrite Nat.add_0_l.
    assert (H0 := H false). assert (H1 := H true). cbn [two] in H0, H1.
    rewrite (ld1_ok in0) by lia. cbn [cbind]. rewrite (ld1_ok in1) by lia. cbn [cbind]. cbv zeta. rewrite R8.
    replace (4 * q + 1 - 1)%nat with (4 * q)%nat by lia.
    change (vcombine (load64 (firstn 8 (skipn (pos + 8 * (4 * q)) in0))) (load64 (firstn 8 (skipn (pos + 8 * (4 * q)) in1)))) with (word_at in0 in1 (pos + 8 * (4 * q))).
    set (s2 := xor_in s1 _ _).
    assert (L2 : forall j, lane2 j s2 = xor_lanes (skipn pos (two in0 in1 j)) 0 (4 * q + 1) (lane2 j s)).
    { intro j. unfold s2. rewrite xor_word, L1, xor_lanes_add. reflexivity. }
    assert (O2 : ok2 s2). { intro j. rewrite L2. apply xor_lanes_wf, O. }
    clearbody s2. destruct (permutex2_ok b s2 Jb O2) as (s3 & E3 & O3 & L3). rewrite E3. cbn [cbind].
    destruct (IH (n - r)%nat (pos + r)%nat s3 ltac:(lia) O3) as (n' & pos' & s' & E' & O' & L' & H' & A').
    { intro j. specialize (H j). rewrite RE, roundup_sub by lia. lia. }
    replace (pos + 8 * (4 * q) + 8)%nat with (pos + r)%nat by lia.
    exists n', pos', s'. split; [exact E'|]. split; [exact O'|]. split; [exact L'|]. split; [exact H'|]. intro j.
    rewrite ab_ge by (rewrite ?(LF j); lia). rewrite <- (A' j). rewrite (L3 j), (L2 j).
    rewrite xor_lanes_at by (first [apply O | apply is_bytes_skipn, B | lia]). rewrite <- RE.
    f_equal.
    + f_equal. apply xor_at_firstn. rewrite firstn_firstn, Nat.min_l by lia. reflexivity.
    + rewrite skipn_firstn_comm, skipn_skipn. reflexivity.
  - exists n, pos, s. split; [reflexivity|]. split; [exact O|]. split; [exact C|]. split; [exact H|]. intro j. apply ab_lt. rewrite (LF j). exact C.
Qed.
Lemma pairs_ok : forall in0 in1 pos fuel n i s, (n < fuel)%nat -> (forall j, (pos + 8 * i + roundup n <= length (two in0 in1 j))%nat) ->
  exists k s', pairs fuel in0 in1 n i (pos + 8 * i) s = CRet ((n - 16 * k)%nat, (i + 2 * k)%nat, (pos + 8 * (i + 2 * k))%nat, s') /\
    (16 * k <= n < 16 * k + 16)%nat /\
    forall j, lane2 j s' = xor_lanes (skipn pos (two in0 in1 j)) i (2 * k) (lane2 j s).
Proof.
  intros in0 in1 pos fuel. induction fuel as [|f IH]; intros n i s F H; [lia|]. cbn [pairs]. assert (RU := roundup_ok n).
  destruct (Nat.leb_spec 16 n) as [C|C].
  - assert (H0 := H false). assert (H1 := H true). cbn [two] in H0, H1.
    rewrite (ld1q_ok in0) by lia. cbn [cbind]. rewrite (ld1q_ok in1) by lia. cbn [cbind]. cbv zeta.
    set (s2 := xor_in _ (i + 1) _).
    assert (L2 : forall j, lane2 j s2 = xor_lanes (skipn pos (two in0 in1 j)) i 2 (lane2 j s)).
    { intro j. unfold s2. change (zip1 (load64 (firstn 8 (skipn (pos + 8 * i) in0)), load64 (firstn 8 (skipn (pos + 8 * i + 8) in0))) (load64 (firstn 8 (skipn (pos + 8 * i) in1)), load64 (firstn 8 (skipn (pos + 8 * i + 8) in1))))
        with (word_at in0 in1 (pos + 8 * i)).
      change (zip2 (load64 (firstn 8 (skipn (pos + 8 * i) in0)), load64 (firstn 8 (skipn (pos + 8 * i + 8) in0))) (load64 (firstn 8 (skipn (pos + 8 * i) in1)), load64 (firstn 8 (skipn (pos + 8 * i + 8) in1))))
        with (word_at in0 in1 (pos + 8 * i + 8)). replace (pos + 8 * i + 8)%nat with (pos + 8 * (i + 1))%nat by lia.
      rewrite !xor_word. rewrite <- xor_lanes_add. reflexivity. }
    clearbody s2. destruct (IH (n - 16)%nat (i + 2)%nat s2 ltac:(lia)) as (k & s' & E & K & L).
    { intro j. specialize (H j). change 16%nat with (8 * 2)%nat. rewrite roundup_sub by lia. lia. }
    replace (pos + 8 * i + 16)%nat with (pos + 8 * (i + 2))%nat by lia. rewrite E. exists (S k), s'. split; [|split; [lia|]].
    + repeat (f_equal; try lia).
    + intro j. rewrite L, L2. replace (2 * S k)%nat with (2 + 2 * k)%nat by lia. rewrite xor_lanes_add. reflexivity.
  - exists 0%nat, s. rewrite !Nat.mul_0_r, !Nat.add_0_r, Nat.sub_0_r. split; [reflexivity|]. split; [lia|]. intro j. reflexivity.
Qed.
(** 442-466 together: all whole words that are left. *)
Lemma words_ok : forall in0 in1 pos n s, (forall j, (pos + roundup n <= length (two in0 in1 j))%nat) ->
  exists s', (do st <- pairs (S n) in0 in1 n 0 pos s ;;
    let '(inlen, i, pos, s) := st in
    if (8 <=? inlen)%nat then
      do x <- ld1 in0 pos ;; do y <- ld1 in1 pos ;;
      CRet ((inlen - 8)%nat, (i + 1)%nat, (pos + 8)%nat, xor_in s i (vcombine x y))
    else CRet (inlen, i, pos, s)) = CRet ((n mod 8)%nat, (n / 8)%nat, (pos + 8 * (n / 8))%nat, s') /\
    forall j, lane2 j s' = xor_lanes (skipn pos (two in0 in1 j)) 0 (n / 8) (lane2 j s).
Proof.
  intros in0 in1 pos n s H. assert (RU := roundup_ok n).
  destruct (pairs_ok in0 in1 pos (S n) n 0 s ltac:(lia)) as (k & s1 & E & K & L). { intro j. specialize (H j). lia. }
  rewrite Nat.mul_0_r, Nat.add_0_r, !Nat.add_0_l in E. rewrite E. cbn [cbind].
  assert (DM := Nat.div_mod n 8 ltac:(lia)). assert (MB := Nat.mod_upper_bound n 8 ltac:(lia)). set (d := (n / 8)%nat) in *. set (m := (n mod 8)%nat) in *. clearbody d m.
  destruct (Nat.leb_spec 8 (n - 16 * k)) as [C|C].
  - assert (H0 := H false). assert (H1 := H true). cbn [two] in H0, H1.
    rewrite (ld1_ok in0) by lia. cbn [cbind]. rewrite (ld1_ok in1) by lia. cbn [cbind].
    change (vcombine (load64 (firstn 8 (skipn (pos + 8 * (2 * k)) in0))) (load64 (firstn 8 (skipn (pos + 8 * (2 * k)) in1)))) with (word_at in0 in1 (pos + 8 * (2 * k))).
    assert (Ed : d = (2 * k + 1)%nat) by lia. eexists. split.
    + replace (n - 16 * k - 8)%nat with m by lia. rewrite Ed. replace (pos + 8 * (2 * k + 1))%nat with (pos + 8 * (2 * k) + 8)%nat by lia. reflexivity.
    + intro j. rewrite xor_word, L, Ed, xor_lanes_add. reflexivity.
  - assert (Ed : d = (2 * k)%nat) by lia. eexists. split.
    + replace (n - 16 * k)%nat with m by lia. rewrite <- Ed. reflexivity.
    + intro j. rewrite L, Ed. reflexivity.
Qed.
Lemma ok2_zero : ok2 (repeat v0 25).
Proof.
  intro j. split; [reflexivity|]. apply Forall_forall. intros x X. unfold lane2 in X. rewrite in_map_iff in X. destruct X as (v & <- & V).
  apply repeat_spec in V. subst v. destruct j; unfold w64; cbn; lia.
Qed.
Lemma lane2_zero : forall j, lane2 j (repeat v0 25) = zero_state. Proof. intros []; reflexivity. Qed.
Lemma sel_vdup : forall j x, sel j (vdup x) = x. Proof. intros [] x; reflexivity. Qed.
Lemma sel_vand : forall j a b, sel j (vand a b) = Z.land (sel j a) (sel j b). Proof. intros [] a b; reflexivity. Qed.
(** [keccakx2_absorb] reads both buffers up to the next multiple of 8 bytes and no further; each lane
    ends in the state of fips202.c's [keccak_absorb] on the [inlen] first bytes of its buffer. *)
Theorem absorb2_ok : forall b r in0 in1 inlen p, junk_ok b -> rate2 r -> (forall j, is_bytes (two in0 in1 j)) -> 0 <= p < 128 ->
  (forall j, (roundup inlen <= length (two in0 in1 j))%nat) ->
  exists s, keccakx2_absorb b r in0 in1 inlen p = CRet s /\ ok2 s /\
    forall j, lane2 j s = padstate r p (firstn inlen (two in0 in1 j)).
Proof.
  intros b r in0 in1 inlen p Jb R B P H. assert (RB := rate_bounds r (rate2_rate r R)). assert (R8 := rate2_words r R). unfold keccakx2_absorb.
  destruct (full_ok b r in0 in1 Jb R B (S inlen) inlen 0 (repeat v0 25) ltac:(lia) ok2_zero H) as (n & pos & s & E & O & N & H' & A).
  rewrite E. cbn [cbind]. clear E.
  destruct (words_ok in0 in1 pos n s H') as (s1 & E1 & L1). unfold cbind in E1 |- *. 
  destruct (pairs (S n) in0 in1 n 0 pos s) as [[[[n1 i1] p1] t1]| |]; try discriminate E1. rewrite E1. clear E1 n1 i1 p1 t1.
  set (i := (n / 8)%nat) in *. assert (NM : (n mod 8 = n - 8 * i)%nat). { unfold i. pose proof (Nat.div_mod n 8 ltac:(lia)). lia. }
  assert (I : (8 * i <= n < 8 * i + 8)%nat). { pose proof (Nat.mod_upper_bound n 8 ltac:(lia)). unfold i in *. pose proof (Nat.div_mod n 8 ltac:(lia)). lia. }
  set (q := (4 * passes r + 1)%nat) in *. assert (Q : (r = 8 * q)%nat) by (unfold q; apply R). assert (Q1 : (0 < q < 25)%nat) by (unfold q; pose proof (proj2 R); lia).
  clearbody q.
  assert (X1 : forall j, lane2 j s1 = xor_at (lane2 j s) 0 (skipn pos (two in0 in1 j)) (8 * i)).
  { intro j. rewrite L1. apply xor_lanes_at; [apply O|apply is_bytes_skipn, B|lia]. }
  assert (T : exists s2, (if (n mod 8 =? 0)%nat then CRet s1
           else match ld1 in0 (pos + 8 * i) with
                | CRet x => match ld1 in1 (pos + 8 * i) with
                            | CRet y => CRet (xor_in s1 i (vand (vcombine x y) (vdup (u64 (Z.shiftl 1 (8 * Z.of_nat (n mod 8))) - 1))))
                            | CFuel => CFuel | CUB => CUB end
                | CFuel => CFuel | CUB => CUB end) = CRet s2 /\
           forall j, lane2 j s2 = xor_at (lane2 j s) 0 (skipn pos (two in0 in1 j)) n).
  { rewrite NM. destruct (Nat.eqb_spec (n - 8 * i) 0) as [Z0|Z0].
    - exists s1. split; [reflexivity|]. intro j. rewrite (X1 j). f_equal. lia.
    - assert (U : roundup n = (8 * i + 8)%nat) by (pose proof (roundup_ok n); unfold roundup in *; lia).
      assert (H0 := H' false). assert (H1 := H' true). cbn [two] in H0, H1. rewrite (ld1_ok in0) by lia. rewrite (ld1_ok in1) by lia.
      eexists. split; [reflexivity|]. intro j. rewrite xor_in_lane, sel_vand, sel_vdup, (X1 j).
      change (vcombine (load64 (firstn 8 (skipn (pos + 8 * i) in0))) (load64 (firstn 8 (skipn (pos + 8 * i) in1)))) with (word_at in0 in1 (pos + 8 * i)).
      rewrite word_lane. rewrite masked_word by (first [apply O | apply is_bytes_skipn, B | lia]). f_equal. lia. }
  destruct T as (s2 & E2 & L2). cbv zeta. unfold cbind in E2 |- *. 
  match goal with |- context [if (n mod 8 =? 0)%nat then ?a else ?c] => replace (if (n mod 8 =? 0)%nat then a else c) with (CRet s2) by (symmetry; exact E2) end. clear E2 X1 L1 s1.
  assert (O2 : ok2 s2). { intro j. rewrite L2. apply xor_at_wf, O. }
  eexists. split; [reflexivity|].
  match goal with |- ok2 ?x /\ _ => assert (W : forall j, lane2 j x = padstate r p (firstn inlen (two in0 in1 j))) end.
  { intro j. rewrite !xor_in_lane, !sel_vdup, (L2 j), NM.
    assert (Dq : (r / 8 - 1 = q - 1)%nat) by (rewrite Q, Nat.mul_comm, Nat.div_mul by lia; reflexivity). rewrite Dq.
    unfold padstate. rewrite <- (lane2_zero j). assert (A' := A j). cbn [skipn] in A'. rewrite A'. clear A A'.
    assert (LR : length (firstn n (skipn pos (two in0 in1 j))) = n).
    { rewrite firstn_length, skipn_length. specialize (H' j). pose proof (roundup_ok n). lia. }
    rewrite <- finalize_eq; [|lia|apply O|apply is_bytes_firstn, is_bytes_skipn, B|rewrite LR; exact N|exact P].
    rewrite LR. rewrite (xor_at_firstn (lane2 j s) (firstn n (skipn pos (two in0 in1 j))) (skipn pos (two in0 in1 j)) n) by (rewrite firstn_firstn, Nat.min_id; reflexivity).
    unfold xor_byte. fold i. rewrite NM.
    assert (D1 : ((r - 1) / 8 = q - 1)%nat). { symmetry. apply (Nat.div_unique _ 8 _ 7); lia. }
    assert (D2 : ((r - 1) mod 8 = 7)%nat). { symmetry. apply (Nat.mod_unique _ 8 (q - 1)); lia. }
    rewrite D1, D2. reflexivity. }
  split; [|exact W]. intro j. rewrite W. apply padstate_wf; [lia|]. apply is_bytes_firstn, B.
Qed.

(** ** Squeezing *)
Lemma out_quads_ok : forall s n i j, (i + 4 * n <= 25)%nat -> length s = 25%nat ->
  sel j (out_quads n i s) = flat_map store64 (firstn (4 * n) (skipn i (lane2 j s))).
Proof.
  intros s n. induction n as [|n IH]; intros i j H L.
  - destruct j; reflexivity.
  - cbn [out_quads]. assert (IHj := IH (i + 4)%nat j ltac:(lia) L). destruct (out_quads n (i + 4) s) as [o0 o1].
    assert (G : firstn (4 * S n) (skipn i (lane2 j s)) =
      nth i (lane2 j s) 0 :: nth (i + 1) (lane2 j s) 0 :: nth (i + 2) (lane2 j s) 0 :: nth (i + 3) (lane2 j s) 0 :: firstn (4 * n) (skipn (i + 4) (lane2 j s))).
    { assert (LL : length (lane2 j s) = 25%nat) by (rewrite lane2_length; exact L). revert LL. generalize (lane2 j s). clear - H. intros l LL.
      assert (SK : forall k, (k < 25)%nat -> skipn k l = nth k l 0 :: skipn (S k) l).
      { clear H. revert LL. generalize 25%nat. induction l as [|x l IH]; intros m LL k K; [cbn in LL; lia|]. destruct k as [|k]; [reflexivity|].
        cbn [skipn nth]. apply (IH (m - 1)%nat); [cbn in LL; lia|lia]. }
      replace (4 * S n)%nat with (S (S (S (S (4 * n))))) by lia.
      rewrite (SK i) by lia. cbn [firstn]. rewrite (SK (S i)) by lia. cbn [firstn]. rewrite (SK (S (S i))) by lia. cbn [firstn]. rewrite (SK (S (S (S i)))) by lia. cbn [firstn].
      replace (i + 1)%nat with (S i) by lia. replace (i + 2)%nat with (S (S i)) by lia. replace (i + 3)%nat with (S (S (S i))) by lia.
      replace (i + 4)%nat with (S (S (S (S i)))) by lia. reflexivity. }
    rewrite G, !lane2_nth. cbn [flat_map]. rewrite <- IHj. unfold st1q, uzp1, uzp2. destruct j; cbn [sel fst snd]; rewrite <- !app_assoc; reflexivity.
Qed.
Lemma firstn_S1 : forall k (l : list Z), (k < length l)%nat -> firstn (k + 1) l = firstn k l ++ [nth k l 0].
Proof.
  induction k as [|k IH]; intros [|x l] H; cbn [length] in H; try lia; [reflexivity|]. cbn [Nat.add firstn nth app]. rewrite IH by lia. reflexivity.
Qed.
Lemma out_block2_ok : forall r s j, rate2 r -> length s = 25%nat -> sel j (out_block2 r s) = flat_map store64 (firstn (r / 8) (lane2 j s)).
Proof.
  intros r s j R L. unfold out_block2. rewrite (rate2_words r R). assert (R5 := proj2 R). set (q := passes r) in *. clearbody q.
  assert (E := out_quads_ok s q 0 j ltac:(lia) L). destruct (out_quads q 0 s) as [o0 o1]. cbn [skipn] in E.
  replace (4 * q + 1 - 1)%nat with (4 * q)%nat by lia.
  rewrite firstn_S1 by (rewrite lane2_length; lia). rewrite flat_map_app, <- E, lane2_nth. cbn [flat_map]. rewrite app_nil_r.
  destruct j; reflexivity.
Qed.
(** [keccakx2_squeezeblocks] is [keccak_squeezeblocks] of fips202.c in both lanes. *)
Theorem squeeze2_ok : forall b r, junk_ok b -> rate2 r -> forall n s, ok2 s ->
  exists o s', keccakx2_squeezeblocks b n r s = CRet (o, s') /\ ok2 s' /\
    forall j, (sel j o, lane2 j s') = keccak_squeezeblocks n r (lane2 j s).
Proof.
  intros b r Jb R n. induction n as [|n IH]; intros s O; cbn [keccakx2_squeezeblocks].
  - exists ([], []), s. split; [reflexivity|]. split; [exact O|]. intro j. destruct j; reflexivity.
  - destruct (permutex2_ok b s Jb O) as (s1 & E1 & O1 & H1). rewrite E1. cbn [cbind].
    destruct (IH s1 O1) as ([t0 t1] & s' & E & O' & H). rewrite E. cbn [cbind].
    assert (L1 : length s1 = 25%nat) by (rewrite <- (lane2_length false); apply O1).
    assert (OB := fun j => out_block2_ok r s1 j R L1). destruct (out_block2 r s1) as [o0 o1].
    exists (o0 ++ t0, o1 ++ t1), s'. split; [reflexivity|]. split; [exact O'|]. intro j. cbn [keccak_squeezeblocks].
    rewrite <- (H1 j). rewrite <- (H j). rewrite <- (OB j). destruct j; reflexivity.
Qed.

(** ** SHAKE128 and SHAKE256, two at a time *)
Theorem shakex2_ok : forall b r outlen in0 in1 inlen, junk_ok b -> rate2 r -> is_bytes in0 -> is_bytes in1 ->
  (roundup inlen <= length in0)%nat -> (roundup inlen <= length in1)%nat ->
  c_shakex2 b r outlen in0 in1 inlen = CRet (c_shake r outlen (firstn inlen in0), c_shake r outlen (firstn inlen in1)).
Proof.
  intros b r outlen in0 in1 inlen Jb R B0 B1 H0 H1.
  assert (B : forall j, is_bytes (two in0 in1 j)) by (intros []; assumption).
  assert (H : forall j, (roundup inlen <= length (two in0 in1 j))%nat) by (intros []; assumption).
  destruct (absorb2_ok b r in0 in1 inlen 31 Jb R B ltac:(lia) H) as (s & E & O & Hs). unfold c_shakex2. rewrite E. cbn [cbind]. clear E.
  destruct (squeeze2_ok b r Jb R (outlen / r) s O) as ([o0 o1] & s' & E & O' & Ho). rewrite E. cbn [cbind]. clear E. cbv zeta.
  assert (K : forall j, keccak_absorb r (firstn inlen (two in0 in1 j)) 31 = padstate r 31 (firstn inlen (two in0 in1 j))).
  { intro j. apply finalize_any; [apply rate2_rate, R|apply is_bytes_firstn, B|lia]. }
  assert (G : forall j, c_shake r outlen (firstn inlen (two in0 in1 j)) =
    let (o, st) := keccak_squeezeblocks (outlen / r) r (lane2 j s) in
    if (outlen - outlen / r * r =? 0)%nat then o
    else let (t, _) := keccak_squeezeblocks 1 r st in o ++ firstn (outlen - outlen / r * r) t).
  { intro j. unfold c_shake. rewrite K, <- (Hs j). reflexivity. }
  assert (G0 := G false). assert (G1 := G true). cbn [two] in G0, G1. rewrite G0, G1. clear G G0 G1.
  rewrite <- (Ho false), <- (Ho true). cbn [sel fst snd].
  destruct (squeeze2_ok b r Jb R 1 s' O') as ([t0 t1] & s'' & E & _ & Ht). rewrite <- (Ht false), <- (Ht true). cbn [sel fst snd].
  destruct (outlen - outlen / r * r =? 0)%nat; [reflexivity|]. rewrite E. reflexivity.
Qed.
(** The outputs of shake128x2 and shake256x2 are those FIPS 202 prescribes for the two inputs; the
    functions read no byte past the next multiple of 8, whatever the rest of the buffers holds. *)
Theorem shake128x2_fips202 : forall b outlen in0 in1 inlen, junk_ok b -> is_bytes in0 -> is_bytes in1 ->
  (roundup inlen <= length in0)%nat -> (roundup inlen <= length in1)%nat ->
  exists o0 o1, c_shakex2 b R_SHAKE128 outlen in0 in1 inlen = CRet (o0, o1) /\
    is_xof SHAKE128 (firstn inlen in0) outlen o0 /\ is_xof SHAKE128 (firstn inlen in1) outlen o1.
Proof.
  intros b outlen in0 in1 inlen Jb B0 B1 H0 H1. eexists. eexists. split; [apply shakex2_ok; try assumption; exact rate2_128|].
  split; apply shake128_fips202, is_bytes_firstn; assumption.
Qed.
Theorem shake256x2_fips202 : forall b outlen in0 in1 inlen, junk_ok b -> is_bytes in0 -> is_bytes in1 ->
  (roundup inlen <= length in0)%nat -> (roundup inlen <= length in1)%nat ->
  exists o0 o1, c_shakex2 b R_SHAKE256 outlen in0 in1 inlen = CRet (o0, o1) /\
    is_xof SHAKE256 (firstn inlen in0) outlen o0 /\ is_xof SHAKE256 (firstn inlen in1) outlen o1.
Proof.
  intros b outlen in0 in1 inlen Jb B0 B1 H0 H1. eexists. eexists. split; [apply shakex2_ok; try assumption; exact rate2_256|].
  split; apply shake256_fips202, is_bytes_firstn; assumption.
Qed.

(** ** Examples *)
(** The premises are met by both builds, and a buffer of less than a multiple of 8 bytes is overrun. *)
Definition some_build (sha3 : bool) : build := Build sha3 (map (fun i => (Z.of_nat i, 18446744073709551615)) (seq 0 36)).
Example some_build_ok : forall t, junk_ok (some_build t).
Proof.
  intro t. split; [reflexivity|]. intro j. unfold lane2. cbn [some_build b_junk]. rewrite map_map. apply Forall_map, Forall_forall. intros i Hi.
  apply in_seq in Hi. destruct j; cbn [sel fst snd]; unfold w64; lia.
Qed.
Example overrun : forall b, keccakx2_absorb b 168 (repeat 0 34) (repeat 0 48) 34 31 = CUB.
Proof. intro b. unfold keccakx2_absorb. reflexivity. Qed.
