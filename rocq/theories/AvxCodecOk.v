(** * AvxCodecOk: the vectorised codecs of pqclean/crypto_sign/dilithium2/avx2/poly.c compute what
    the reference computes, for every buffer large enough for their 32-byte accesses. *)
From Coq Require Import ZArith List Lia Bool.
From Verif Require Import Base Bits SaberPoly SaberRing DilArith DilNtt DilPoly DilPack DilCodec DilCodec2 DilOps DilHint KeccakProps AvxPoly AvxBytes AvxBytesOk.
Import ListNotations.
Open Scope Z_scope.

Lemma slice_slice : forall (b : bytes) o n o' m, (o' + m <= n)%nat -> (o + n <= length b)%nat -> slice (slice b o n) o' m = slice b (o + o') m.
Proof.
  intros b o n o' m H L. apply (nth_ext _ _ 0 0); [rewrite !slice_length; try rewrite slice_length; lia|].
  rewrite slice_length by (rewrite slice_length; lia). intros k Hk. fold (at_ (slice (slice b o n) o' m) k). fold (at_ (slice b (o + o') m) k).
  rewrite !slice_at by lia. f_equal. lia.
Qed.
(** ** poly.c 949-970: [polyz_unpack] *)
Lemma z_shuffle : forall b0 b1 b2 b3 b4 b5 b6 b7 b8 b9 b10 b11 b12 b13 b14 b15 b16 b17 b18 b19 b20 b21 b22 b23 b24 b25 b26 b27 b28 b29 b30 b31,
  shuffle_epi8 (permute4x64 [b0; b1; b2; b3; b4; b5; b6; b7; b8; b9; b10; b11; b12; b13; b14; b15; b16; b17; b18; b19; b20; b21; b22; b23; b24; b25; b26; b27; b28; b29; b30; b31] 148) z_shufb =
  [b0; b1; b2; 0; b2; b3; b4; 0; b4; b5; b6; 0; b6; b7; b8; 0; b9; b10; b11; 0; b11; b12; b13; 0; b13; b14; b15; 0; b15; b16; b17; 0].
Proof. intros. reflexivity. Qed.
Lemma z_lane : forall b0 b1 b2 n, is_byte b0 -> is_byte b1 -> is_byte b2 -> 0 <= n <= 8 ->
  sub_epi32 GAMMA1 (and_si256 (srli_epi32 (i32 (le [b0; b1; b2; 0])) n) 262143) =
  GAMMA1 - (b0 >> n .| Z.shiftl b1 (8 - n) .| Z.shiftl b2 (16 - n)) .& 262143.
Proof.
  intros b0 b1 b2 n H0 H1 H2 Hn. destruct (lane24 b0 b1 b2 H0 H1 H2) as (E & R). set (x := i32 (le [b0; b1; b2; 0])) in *.
  assert (Es : srli_epi32 x n = b0 >> n .| Z.shiftl b1 (8 - n) .| Z.shiftl b2 (16 - n)).
  { unfold srli_epi32. rewrite Z.mod_small by lia. rewrite i32_id.
    - rewrite E, !Z.shiftr_lor, !Z.shiftr_shiftl_l by lia. reflexivity.
    - assert (P : 0 < 2 ^ n) by (apply Z.pow_pos_nonneg; lia). rewrite Z.shiftr_div_pow2 by lia. unfold in32. split.
      + assert (0 <= x / 2 ^ n) by (apply Z.div_pos; lia). lia.
      + assert (x / 2 ^ n <= x) by (apply Z.div_le_upper_bound; nia). lia. }
  rewrite Es. unfold and_si256, sub_epi32. apply i32_id. change 262143 with (Z.ones 18). rewrite Z.land_ones by lia.
  match goal with |- in32 (GAMMA1 - ?y mod _) => pose proof (Z.mod_pos_bound y (2 ^ 18)) end. change (2 ^ 18) with 262144 in *. unfold in32, GAMMA1. lia.
Qed.
Lemma z_block_ok : forall b, length b = 32%nat -> is_bytes b ->
  z_block b = map (fun x => GAMMA1 - x) (z_unpack4 (slice b 0 9)) ++ map (fun x => GAMMA1 - x) (z_unpack4 (slice b 9 9)).
Proof.
  intros b L F. destruct (list32 b L) as (b0 & b1 & b2 & b3 & b4 & b5 & b6 & b7 & b8 & b9 & b10 & b11 & b12 & b13 & b14 & b15 & b16 & b17 & b18 & b19 & b20 & b21 & b22 & b23 & b24 & b25 & b26 & b27 & b28 & b29 & b30 & b31 & ->).
  clear L. unfold is_bytes in F. repeat (apply Forall_cons_iff in F; let H := fresh "H" in destruct F as [H F]).
  unfold z_block. cbv zeta. rewrite z_shuffle.
  change (lanes32 _) with [i32 (le [b0; b1; b2; 0]); i32 (le [b2; b3; b4; 0]); i32 (le [b4; b5; b6; 0]); i32 (le [b6; b7; b8; 0]);
    i32 (le [b9; b10; b11; 0]); i32 (le [b11; b12; b13; 0]); i32 (le [b13; b14; b15; 0]); i32 (le [b15; b16; b17; 0])].
  change z_srlv with [0; 2; 4; 6; 0; 2; 4; 6]. cbn [srlv_epi32 map2 map].
  rewrite !z_lane by (try assumption; lia).
  change (slice _ 0 9) with [b0; b1; b2; b3; b4; b5; b6; b7; b8]. change (slice _ 9 9) with [b9; b10; b11; b12; b13; b14; b15; b16; b17].
  cbn [z_unpack4 at_ nth map app]. rewrite !Z.shiftr_0_r. reflexivity.
Qed.
Theorem polyz_unpack_avx_ok : forall a off, (off + 590 <= length a)%nat -> is_bytes a ->
  polyz_unpack_avx a off = CRet (polyz_unpack (slice a off 576)).
Proof.
  intros a off H F. unfold polyz_unpack_avx.
  assert (G : forall k i, (i + k = 32)%nat -> exists l,
    mapM (fun i => do f <- loadu a (off + 18 * i) ;; CRet (z_block f)) (seq i k) = CRet l /\ concat l = polyz_unpack (slice a (off + 18 * i) (18 * k))).
  { induction k as [|k IH]; intros i Hi.
    - exists []. split; [reflexivity|]. unfold slice. cbn [firstn Nat.mul]. reflexivity.
    - cbn [seq mapM]. unfold loadu at 1. assert (E : (off + 18 * i + 32 <=? length a)%nat = true) by (apply Nat.leb_le; lia).
      rewrite E. clear E. cbn [cbind]. destruct (IH (S i)) as (l & E & C); [lia|]. rewrite E. cbn [cbind]. eexists. split; [reflexivity|].
      cbn [concat]. rewrite C. rewrite z_block_ok by (try apply slice_bytes; try apply slice_length; try assumption; lia).
      rewrite (slice_split a (off + 18 * i) (18 * S k) 9) by lia. rewrite (slice_split a (off + 18 * i + 9) _ 9) by lia.
      unfold polyz_unpack. rewrite !chunks_cons by (try apply slice_length; lia). cbn [flat_map]. rewrite <- app_assoc.
      rewrite !slice_slice by lia. rewrite Nat.add_0_r. apply f_equal. apply f_equal.
      replace (off + 18 * i + 9 + 9)%nat with (off + 18 * S i)%nat by lia. replace (18 * S k - 9 - 9)%nat with (18 * k)%nat by lia. reflexivity. }
  destruct (G 32%nat 0%nat) as (l & E & C); [reflexivity|]. rewrite E. cbn [cbind]. rewrite C. f_equal. f_equal. f_equal; lia.
Qed.

(** ** poly.c 982-1010: [polyw1_pack] *)
Definition in6 (x : Z) : Prop := 0 <= x < 64.
Definition lane6 (x y z w : Z) : Z := x + 64 * y + 4096 * (z + 64 * w).
Lemma lane6_bytes : forall x y z w, in6 x -> in6 y -> in6 z -> in6 w ->
  le_bytes 4 (lane6 x y z w mod 4294967296) = w1_pack4 [x; y; z; w] ++ [0].
Proof.
  unfold in6. intros x y z w Hx Hy Hz Hw. unfold lane6, w1_pack4. cbn [at_ nth app le_bytes]. rewrite (Z.mod_small (x + 64 * y + 4096 * (z + 64 * w)) 4294967296) by lia.
  unfold u8. rewrite !Z.shiftl_mul_pow2, !Z.shiftr_div_pow2 by lia. change (2 ^ 6) with 64. change (2 ^ 2) with 4. change (2 ^ 4) with 16.
  assert (S : forall a b n, 0 <= n -> 0 <= a < 2 ^ n -> Z.lor a (b * 2 ^ n) = a + b * 2 ^ n).
  { intros a b n Hn H. rewrite <- (Z.shiftl_mul_pow2 b n Hn). rewrite lor_sum by assumption. rewrite Z.shiftl_mul_pow2 by exact Hn. reflexivity. }
  rewrite (Z.mod_small x) by lia. rewrite (Z.mod_small (y / 4)) by (split; [apply Z.div_pos; lia|apply Z.div_lt_upper_bound; lia]).
  rewrite (Z.mod_small (z / 16)) by (split; [apply Z.div_pos; lia|apply Z.div_lt_upper_bound; lia]).
  replace ((y * 64) mod 256) with ((y mod 4) * 2 ^ 6) by (change (2 ^ 6) with 64; rewrite (Z.mul_comm y), (Z.mul_comm (y mod 4)); rewrite <- Z.mul_mod_distr_l by lia; reflexivity).
  replace ((z * 16) mod 256) with ((z mod 16) * 2 ^ 4) by (change (2 ^ 4) with 16; rewrite (Z.mul_comm z), (Z.mul_comm (z mod 16)); rewrite <- Z.mul_mod_distr_l by lia; reflexivity).
  rewrite (Z.mod_small (w * 4)) by lia. change (w * 4) with (w * 2 ^ 2).
  assert (Hy4 := Z.mod_pos_bound y 4 ltac:(lia)). assert (Hz4 := Z.mod_pos_bound z 16 ltac:(lia)).
  assert (Ey := Z.div_mod y 4 ltac:(lia)). assert (Ez := Z.div_mod z 16 ltac:(lia)).
  assert (By : 0 <= y / 4 < 16) by lia. assert (Bz : 0 <= z / 16 < 4) by lia.
  rewrite (S x) by (try apply Hx; lia). rewrite (S (y / 4)) by (change (2 ^ 4) with 16; lia). rewrite (S (z / 16)) by (change (2 ^ 2) with 4; lia).
  change (2 ^ 6) with 64. change (2 ^ 4) with 16. change (2 ^ 2) with 4. set (y1 := y / 4) in *. set (y0 := y mod 4) in *. set (z1 := z / 16) in *. set (z0 := z mod 16) in *. clearbody y1 y0 z1 z0.
  assert (E : x + 64 * y + 4096 * (z + 64 * w) = (x + y0 * 64) + 256 * ((y1 + z0 * 16) + 256 * (z1 + w * 4))) by lia.
  rewrite E. clear E. set (c0 := x + y0 * 64). set (c1 := y1 + z0 * 16). set (c2 := z1 + w * 4).
  assert (B0 : 0 <= c0 < 256) by lia. assert (B1 : 0 <= c1 < 256) by lia. assert (B2 : 0 <= c2 < 256) by lia. clearbody c0 c1 c2.
  assert (D : forall a b, 0 <= a < 256 -> (a + 256 * b) mod 256 = a /\ (a + 256 * b) / 256 = b).
  { intros a b Ha. rewrite (Z.mul_comm 256). rewrite Z.mod_add, Z.div_add, Z.mod_small, Z.div_small by lia. lia. }
  destruct (D c0 (c1 + 256 * c2) B0) as (-> & ->). destruct (D c1 c2 B1) as (-> & ->). rewrite (Z.mod_small c2), (Z.div_small c2) by lia. reflexivity.
Qed.
Lemma w1_shuffle1 : forall b0 b1 b2 b3 b4 b5 b6 b7 b8 b9 b10 b11 b12 b13 b14 b15 b16 b17 b18 b19 b20 b21 b22 b23,
  shuffle_epi8 [b0; b1; b2; 0; b3; b4; b5; 0; b6; b7; b8; 0; b9; b10; b11; 0; b12; b13; b14; 0; b15; b16; b17; 0; b18; b19; b20; 0; b21; b22; b23; 0] w1_shufb =
  [b0; b1; b2; b3; b4; b5; b6; b7; b8; b9; b10; b11; 0; 0; 0; 0; b12; b13; b14; b15; b16; b17; b18; b19; b20; b21; b22; b23; 0; 0; 0; 0].
Proof. intros. reflexivity. Qed.
Lemma lane_bytes : forall a b c d, is_byte a -> is_byte b -> is_byte c -> is_byte d ->
  le_bytes 4 (i32 (le [a; b; c; d]) mod 4294967296) = [a; b; c; d].
Proof.
  intros a b c d Ha Hb Hc Hd. assert (F : Forall (fun b => 0 <= b < 256) [a; b; c; d]) by (repeat constructor; unfold is_byte in *; lia).
  assert (E : i32 (le [a; b; c; d]) mod 4294967296 = le [a; b; c; d]).
  { pose proof (le_bound _ F) as B. change (256 ^ Z.of_nat (length [a; b; c; d])) with 4294967296 in B. set (x := le [a; b; c; d]) in *.
    destruct (i32_cong x) as [k ->]. rewrite Z.mod_add by lia. apply Z.mod_small. exact B. }
  rewrite E. apply (le_bytes_le [a; b; c; d] F).
Qed.

Lemma satu_map : forall l, Forall in6 l -> map (satu 65535) l = l /\ map (fun w => satu 255 (s16 w)) l = l.
Proof.
  intros l F. induction F as [|x l Hx F IH]; [split; reflexivity|]. destruct IH as (I1 & I2). unfold in6 in Hx. cbn [map]. rewrite I1, I2. split; f_equal.
  - unfold satu. destruct (Z.ltb_spec x 0); [lia|]. destruct (Z.ltb_spec 65535 x); lia.
  - assert (E : s16 x = x) by (unfold s16; rewrite Z.mod_small; lia). rewrite E. unfold satu. destruct (Z.ltb_spec x 0); [lia|]. destruct (Z.ltb_spec 255 x); lia.
Qed.
Lemma satu_map16 : forall l, Forall in6 l -> map (fun w => satu 255 (s16 w)) l = l.
Proof. intros l F. apply satu_map, F. Qed.
Lemma madd_lane : forall x y z w, in6 x -> in6 y -> in6 z -> in6 w ->
  i32 (s16 (sats16 (x * 1 + y * 64)) * 1 + s16 (sats16 (z * 1 + w * 64)) * 4096) = lane6 x y z w.
Proof.
  unfold in6, lane6. intros x y z w Hx Hy Hz Hw.
  assert (E : forall a b, 0 <= a < 64 -> 0 <= b < 64 -> s16 (sats16 (a * 1 + b * 64)) = a + 64 * b).
  { intros a b Ha Hb. assert (E : sats16 (a * 1 + b * 64) = a + 64 * b). { unfold sats16. destruct (Z.ltb_spec (a * 1 + b * 64) (-32768)); [lia|]. destruct (Z.ltb_spec 32767 (a * 1 + b * 64)); lia. }
    rewrite E. unfold s16. rewrite Z.mod_small; lia. }
  rewrite !E by assumption. rewrite i32_id; [ring|]. unfold in32. lia.
Qed.
Lemma list8 : forall (b : list Z), length b = 8%nat -> exists b0 b1 b2 b3 b4 b5 b6 b7, b = [b0; b1; b2; b3; b4; b5; b6; b7].
Proof. intros b L. do 8 (destruct b as [|? b]; [discriminate L|]). destruct b; [|discriminate L]. do 8 eexists. reflexivity. Qed.
Lemma w1_pack4_list : forall x y z w, w1_pack4 [x; y; z; w] = [at_ (w1_pack4 [x; y; z; w]) 0; at_ (w1_pack4 [x; y; z; w]) 1; at_ (w1_pack4 [x; y; z; w]) 2].
Proof. intros. reflexivity. Qed.
Lemma w1_pack4_bytes : forall l, exists a b c, w1_pack4 l = [a; b; c] /\ is_byte a /\ is_byte b /\ is_byte c.
Proof. intro l. do 3 eexists. split; [reflexivity|]. repeat split; try apply byte_lor; try apply u8_byte. Qed.
Lemma w1_block_ok : forall f0 f1 f2 f3, length f0 = 8%nat -> length f1 = 8%nat -> length f2 = 8%nat -> length f3 = 8%nat ->
  Forall in6 (f0 ++ f1 ++ f2 ++ f3) -> w1_block f0 f1 f2 f3 = polyw1_pack (f0 ++ f1 ++ f2 ++ f3) ++ repeat 0 8.
Proof.
  intros f0 f1 f2 f3 L0 L1 L2 L3 F. apply Forall_app in F. destruct F as [F0 F]. apply Forall_app in F. destruct F as [F1 F]. apply Forall_app in F. destruct F as [F2 F3].
  unfold w1_block. cbv zeta.
  assert (P1 : packus_epi32 f0 f1 = firstn 4 f0 ++ firstn 4 f1 ++ skipn 4 f0 ++ skipn 4 f1).
  { unfold packus_epi32. cbv zeta. rewrite (proj1 (satu_map f0 F0)), (proj1 (satu_map f1 F1)). reflexivity. }
  assert (P2 : packus_epi32 f2 f3 = firstn 4 f2 ++ firstn 4 f3 ++ skipn 4 f2 ++ skipn 4 f3).
  { unfold packus_epi32. cbv zeta. rewrite (proj1 (satu_map f2 F2)), (proj1 (satu_map f3 F3)). reflexivity. }
  rewrite P1, P2. clear P1 P2.
  destruct (list8 f0 L0) as (x0 & x1 & x2 & x3 & x4 & x5 & x6 & x7 & ->). destruct (list8 f1 L1) as (x8 & x9 & x10 & x11 & x12 & x13 & x14 & x15 & ->).
  destruct (list8 f2 L2) as (x16 & x17 & x18 & x19 & x20 & x21 & x22 & x23 & ->). destruct (list8 f3 L3) as (x24 & x25 & x26 & x27 & x28 & x29 & x30 & x31 & ->).
  clear L0 L1 L2 L3. cbn [firstn skipn app].
  repeat (apply Forall_cons_iff in F0; let H := fresh "H" in destruct F0 as [H F0]). repeat (apply Forall_cons_iff in F1; let H := fresh "H" in destruct F1 as [H F1]).
  repeat (apply Forall_cons_iff in F2; let H := fresh "H" in destruct F2 as [H F2]). repeat (apply Forall_cons_iff in F3; let H := fresh "H" in destruct F3 as [H F3]). clear F0 F1 F2 F3.
  unfold packus_epi16. cbv zeta. rewrite !satu_map16 by (repeat (apply Forall_cons; [assumption|]); apply Forall_nil). cbn [firstn skipn app].
  unfold maddubs_epi16. cbn [pairs]. unfold madd_epi16. cbn [pairs]. rewrite !madd_lane by assumption.
  change (permutevar8x32 [lane6 x0 x1 x2 x3; lane6 x8 x9 x10 x11; lane6 x16 x17 x18 x19; lane6 x24 x25 x26 x27; lane6 x4 x5 x6 x7; lane6 x12 x13 x14 x15; lane6 x20 x21 x22 x23; lane6 x28 x29 x30 x31] w1_shufd1) with
    [lane6 x0 x1 x2 x3; lane6 x4 x5 x6 x7; lane6 x8 x9 x10 x11; lane6 x12 x13 x14 x15; lane6 x16 x17 x18 x19; lane6 x20 x21 x22 x23; lane6 x24 x25 x26 x27; lane6 x28 x29 x30 x31].
  unfold bytes32 at 2. cbn [flat_map]. rewrite !lane6_bytes by assumption.
  change (polyw1_pack _) with (w1_pack4 [x0; x1; x2; x3] ++ w1_pack4 [x4; x5; x6; x7] ++ w1_pack4 [x8; x9; x10; x11] ++ w1_pack4 [x12; x13; x14; x15] ++ w1_pack4 [x16; x17; x18; x19] ++ w1_pack4 [x20; x21; x22; x23] ++ w1_pack4 [x24; x25; x26; x27] ++ w1_pack4 [x28; x29; x30; x31] ++ []).
  destruct (w1_pack4_bytes [x0; x1; x2; x3]) as (b0 & b1 & b2 & -> & K0 & K1 & K2).
  destruct (w1_pack4_bytes [x4; x5; x6; x7]) as (b3 & b4 & b5 & -> & K3 & K4 & K5).
  destruct (w1_pack4_bytes [x8; x9; x10; x11]) as (b6 & b7 & b8 & -> & K6 & K7 & K8).
  destruct (w1_pack4_bytes [x12; x13; x14; x15]) as (b9 & b10 & b11 & -> & K9 & K10 & K11).
  destruct (w1_pack4_bytes [x16; x17; x18; x19]) as (b12 & b13 & b14 & -> & K12 & K13 & K14).
  destruct (w1_pack4_bytes [x20; x21; x22; x23]) as (b15 & b16 & b17 & -> & K15 & K16 & K17).
  destruct (w1_pack4_bytes [x24; x25; x26; x27]) as (b18 & b19 & b20 & -> & K18 & K19 & K20).
  destruct (w1_pack4_bytes [x28; x29; x30; x31]) as (b21 & b22 & b23 & -> & K21 & K22 & K23).
  cbn [app]. rewrite w1_shuffle1.
  change (permutevar8x32 _ w1_shufd2) with [i32 (le [b0; b1; b2; b3]); i32 (le [b4; b5; b6; b7]); i32 (le [b8; b9; b10; b11]); i32 (le [b12; b13; b14; b15]); i32 (le [b16; b17; b18; b19]); i32 (le [b20; b21; b22; b23]); i32 (le [0; 0; 0; 0]); i32 (le [0; 0; 0; 0])].
  unfold bytes32. cbn [flat_map]. rewrite !lane_bytes by (try assumption; unfold is_byte; lia). reflexivity.
Qed.

Lemma patch_both : forall {A} (b : list A) off src k, (off + length src <= length b)%nat -> (k <= length src)%nat ->
  exists b', patch b off src = CRet b' /\ length b' = length b /\ firstn (off + k) b' = firstn off b ++ firstn k src /\
    skipn (off + length src) b' = skipn (off + length src) b.
Proof.
  intros A b off src k H Hk. destruct (patch_prefix b off src k H Hk) as (b' & E & L & F). exists b'. repeat split; try assumption.
  rewrite patch_ok in E by exact H. injection E as <-. rewrite skipn_app. assert (Lf : length (firstn off b) = off) by (rewrite firstn_length; lia).
  rewrite Lf. rewrite skipn_all2 by lia. replace (off + length src - off)%nat with (length src) by lia. rewrite skipn_app, skipn_all, Nat.sub_diag. reflexivity.
Qed.
Lemma skipn_more : forall {A} (b c : list A) m n, (m <= n)%nat -> skipn m b = skipn m c -> skipn n b = skipn n c.
Proof.
  intros A b c m n H E. replace n with (m + (n - m))%nat by lia. 
  assert (G : forall (l : list A) i j, skipn (i + j) l = skipn j (skipn i l)).
  { intros l i j. revert l. induction i as [|i IH]; intro l; [reflexivity|]. destruct l; [rewrite !skipn_nil; reflexivity|]. cbn [skipn Nat.add]. apply IH. }
  rewrite !G, E. reflexivity.
Qed.
Lemma chunks_more : forall (a b : list Z), (exists k, length a = 4 * k)%nat -> chunks_exact 4 (a ++ b) = chunks_exact 4 a ++ chunks_exact 4 b.
Proof.
  intros a b (k & L). revert a L. induction k as [|k IH]; intros a L; [destruct a; [reflexivity|discriminate L]|].
  destruct a as [|w [|x [|y [|z a]]]]; try (cbn in L; lia).
  change ((w :: x :: y :: z :: a) ++ b) with ([w; x; y; z] ++ (a ++ b)). change (w :: x :: y :: z :: a) with ([w; x; y; z] ++ a).
  rewrite (chunks_cons 4 [w; x; y; z] (a ++ b)), (chunks_cons 4 [w; x; y; z] a) by (reflexivity || lia). rewrite IH by (cbn in L; lia). reflexivity.
Qed.
(** The 192 bytes are written at [off]; nothing before them, and nothing from [off + 200] on, changes. *)
Theorem polyw1_pack_avx_ok : forall r off a, (off + 200 <= length r)%nat -> length a = 256%nat -> Forall in6 a ->
  exists r', polyw1_pack_avx r off a = CRet r' /\ length r' = length r /\
    firstn (off + 192) r' = firstn off r ++ polyw1_pack a /\ skipn (off + 200) r' = skipn (off + 200) r.
Proof.
  intros r off a H L F. unfold polyw1_pack_avx.
  assert (G : forall k i s, (i + k = 8)%nat -> length s = length r -> firstn (off + 24 * i) s = firstn off r ++ polyw1_pack (firstn (32 * i) a) ->
    skipn (off + 200) s = skipn (off + 200) r ->
    exists r', foldM (fun r i => patch r (off + 24 * i) (w1_block (vec_of a (4 * i)) (vec_of a (4 * i + 1)) (vec_of a (4 * i + 2)) (vec_of a (4 * i + 3)))) (seq i k) s = CRet r' /\
      length r' = length r /\ firstn (off + 192) r' = firstn off r ++ polyw1_pack a /\ skipn (off + 200) r' = skipn (off + 200) r).
  { induction k as [|k IH]; intros i s Hi Ls Fs Ss.
    - exists s. cbn [seq foldM]. replace i with 8%nat in * by lia. change (24 * 8)%nat with 192%nat in Fs. change (32 * 8)%nat with 256%nat in Fs.
      rewrite (firstn_all2 a) in Fs by lia. auto.
    - cbn [seq]. rewrite foldM_cons.
      assert (E4 : vec_of a (4 * i) ++ vec_of a (4 * i + 1) ++ vec_of a (4 * i + 2) ++ vec_of a (4 * i + 3) = slice a (32 * i) 32).
      { unfold vec_of. fold (slice a (8 * (4 * i)) 8). fold (slice a (8 * (4 * i + 1)) 8). fold (slice a (8 * (4 * i + 2)) 8). fold (slice a (8 * (4 * i + 3)) 8).
        rewrite (slice_split a (32 * i) 32 8) by lia. rewrite (slice_split a (32 * i + 8) (32 - 8) 8) by lia. rewrite (slice_split a (32 * i + 8 + 8) (32 - 8 - 8) 8) by lia.
        replace (8 * (4 * i))%nat with (32 * i)%nat by lia. replace (8 * (4 * i + 1))%nat with (32 * i + 8)%nat by lia. replace (8 * (4 * i + 2))%nat with (32 * i + 8 + 8)%nat by lia. replace (8 * (4 * i + 3))%nat with (32 * i + 8 + 8 + 8)%nat by lia. reflexivity. }
      assert (Lv : forall j, (j < 32)%nat -> length (vec_of a j) = 8%nat) by (intros j Hj; unfold vec_of; rewrite firstn_length, skipn_length; lia).
      assert (W : w1_block (vec_of a (4 * i)) (vec_of a (4 * i + 1)) (vec_of a (4 * i + 2)) (vec_of a (4 * i + 3)) = polyw1_pack (slice a (32 * i) 32) ++ repeat 0 8).
      { rewrite w1_block_ok; try (apply Lv; lia); rewrite E4; [reflexivity|]. unfold slice. apply Forall_forall. intros x Hx. rewrite Forall_forall in F. apply F.
        apply (In_nth _ _ 0) in Hx. destruct Hx as (p & Hp & <-). rewrite firstn_length, skipn_length in Hp. rewrite nth_firstn_lt by lia. rewrite nth_skipn. apply nth_In. lia. }
      rewrite W. clear W E4 Lv.
      assert (Lp : length (polyw1_pack (slice a (32 * i) 32)) = 24%nat).
      { pose proof (slice_length a (32 * i) 32 ltac:(lia)) as Lb. set (b := slice a (32 * i) 32) in *. clearbody b.
        destruct (list32 b Lb) as (b0 & b1 & b2 & b3 & b4 & b5 & b6 & b7 & b8 & b9 & b10 & b11 & b12 & b13 & b14 & b15 & b16 & b17 & b18 & b19 & b20 & b21 & b22 & b23 & b24 & b25 & b26 & b27 & b28 & b29 & b30 & b31 & ->). reflexivity. }
      destruct (patch_both s (off + 24 * i) (polyw1_pack (slice a (32 * i) 32) ++ repeat 0 8) 24) as (s' & E & Ls' & Fs' & Ss').
      { rewrite app_length, Lp, repeat_length. lia. } { rewrite app_length, Lp, repeat_length. lia. }
      rewrite E. cbn [cbind]. apply IH; [lia|congruence| |].
      + replace (off + 24 * S i)%nat with (off + 24 * i + 24)%nat by lia. rewrite Fs', Fs, <- app_assoc. f_equal.
        rewrite (firstn_app 24), Lp, Nat.sub_diag, firstn_O, app_nil_r. rewrite (firstn_all2 (polyw1_pack (slice a (32 * i) 32))) by lia.
        replace (32 * S i)%nat with (32 * i + 32)%nat by lia.
        change (firstn (32 * i + 32) a) with (slice a 0 (32 * i + 32)). rewrite (slice_split a 0 (32 * i + 32) (32 * i)) by lia.
        replace (32 * i + 32 - 32 * i)%nat with 32%nat by lia. rewrite Nat.add_0_l. change (slice a 0 (32 * i)) with (firstn (32 * i) a).
        unfold polyw1_pack. rewrite <- flat_map_app. f_equal. symmetry. apply chunks_more. exists (8 * i)%nat. rewrite firstn_length. lia.
      + rewrite <- Ss. rewrite app_length, Lp, repeat_length in Ss'. apply (skipn_more s' s (off + 24 * i + (24 + 8))); [lia|exact Ss']. }
  apply (G 8%nat 0%nat r); auto. rewrite Nat.mul_0_r, Nat.add_0_r. cbn [Nat.mul firstn]. unfold polyw1_pack. cbn. rewrite app_nil_r. reflexivity.
Qed.
