(** * DilSampleSpec: the rejection samplers of poly.c read the hash stream as the specification says,
    whatever the block boundaries. *)
From Coq Require Import ZArith List Lia Bool.
From Verif Require Import Base Bits SaberPoly SaberRing SaberCbd DilArith DilNtt DilPoly DilPack DilCodec DilCodec2 DilHint DilOps DilSample.
Import ListNotations.
Open Scope Z_scope.

(** ** Specification *)
(** Byte [i] of a stream. *)
Definition sbyte (s : rng) (i : nat) : Z := s i mod 256.
(** Candidate [k]: bytes 3k, 3k+1, 3k+2, little endian, without the top bit. *)
Definition candidate (s : rng) (k : nat) : Z :=
  (sbyte s (3 * k) + 256 * sbyte s (3 * k + 1) + 65536 * sbyte s (3 * k + 2)) mod 8388608.
(** The polynomial made of the first 256 candidates below q. *)
Definition uniform_spec (s : rng) (a : poly) : Prop :=
  exists n, a = firstn 256 (filter (fun t => t <? 8380417) (map (candidate s) (seq 0 n))) /\ length a = 256%nat.
(** Half byte [k] of the stream, low half first. *)
Definition nibble (s : rng) (k : nat) : Z :=
  if Nat.even k then sbyte s (k / 2) mod 16 else sbyte s (k / 2) / 16.
(** The polynomial made of 2 - (t mod 5) for the first 256 half bytes t other than 15. *)
Definition eta_spec (s : rng) (a : poly) : Prop :=
  exists n, a = firstn 256 (map (fun t => 2 - t mod 5) (filter (fun t => t <? 15) (map (nibble s) (seq 0 n)))) /\ length a = 256%nat.
(** The challenge: positions 217..255 in turn; [pos i] is the stream position of the byte used for
    step i, the first one not yet used whose value is at most i; the sign is bit i - 217 of the
    first eight bytes. *)
Fixpoint ball (s : rng) (pos : nat -> nat) (n : nat) : nat -> Z :=
  match n with
  | O => fun _ => 0
  | S n' => let i := (217 + n')%nat in let j := Z.to_nat (sbyte s (pos i)) in
      fun x => if (x =? j)%nat then (-1) ^ (sbyte s (n' / 8) / 2 ^ Z.of_nat (n' mod 8))
               else if (x =? i)%nat then ball s pos n' j else ball s pos n' x
  end.
Definition challenge_spec (s : rng) (c : poly) : Prop :=
  exists pos, (forall i, (217 <= i < 256)%nat ->
      let lo := if (i =? 217)%nat then 8%nat else S (pos (i - 1)%nat) in
      (lo <= pos i)%nat /\ sbyte s (pos i) <= Z.of_nat i /\ forall p, (lo <= p < pos i)%nat -> Z.of_nat i < sbyte s p) /\
    length c = 256%nat /\ forall x, (x < 256)%nat -> nth x c 0 = ball s pos 39 x.

(** ** Uniform sampling *)
Lemma squeeze_S : forall s off n, squeeze s off (S n) = sbyte s off :: squeeze s (S off) n. Proof. reflexivity. Qed.
Lemma squeeze_app : forall s off n m, squeeze s off (n + m) = squeeze s off n ++ squeeze s (off + n) m.
Proof. intros. unfold squeeze. rewrite seq_app, map_app. reflexivity. Qed.
Lemma sbyte_range : forall s i, 0 <= sbyte s i < 256. Proof. intros. apply Z.mod_pos_bound. lia. Qed.
Lemma cand_ok : forall b0 b1 b2, 0 <= b0 < 256 -> 0 <= b1 < 256 -> 0 <= b2 < 256 ->
  Z.land (Z.lor (Z.lor b0 (Z.shiftl b1 8)) (Z.shiftl b2 16)) 8388607 = (b0 + 256 * b1 + 65536 * b2) mod 8388608.
Proof.
  intros b0 b1 b2 H0 H1 H2. change 8388607 with (2 ^ 23 - 1). rewrite land_mask_mod by lia. change (2 ^ 23) with 8388608. f_equal.
  rewrite !Z.shiftl_mul_pow2 by lia. rewrite (Z.mul_comm b1), (Z.mul_comm b2).
  rewrite <- (add_disjoint_lor b0) by (apply low_high_disjoint; lia).
  rewrite <- add_disjoint_lor by (apply low_high_disjoint; lia). reflexivity.
Qed.
Lemma rej_uniform_eq : forall m len s p,
  rej_uniform len (squeeze s (3 * p) (3 * m)) = firstn len (filter (fun t => t <? 8380417) (map (candidate s) (seq p m))).
Proof.
  induction m as [|m IH]; intros len s p.
  - change (squeeze s (3 * p) (3 * 0)) with (@nil Z). cbn [seq map filter]. rewrite firstn_nil. destruct len; reflexivity.
  - destruct len as [|len]; [reflexivity|].
    replace (3 * S m)%nat with (S (S (S (3 * m)))) by lia. rewrite !squeeze_S. cbn [rej_uniform seq map filter].
    replace (S (3 * p)) with (3 * p + 1)%nat by lia. replace (S (3 * p + 1)) with (3 * p + 2)%nat by lia.
    replace (S (3 * p + 2)) with (3 * S p)%nat by lia.
    rewrite cand_ok by apply sbyte_range. fold (candidate s p). change Q with 8380417.
    destruct (candidate s p <? 8380417); rewrite IH; reflexivity.
Qed.
Lemma firstn_more : forall {A} (l r : list A), (256 <= length l)%nat -> firstn 256 (l ++ r) = firstn 256 l.
Proof. intros A l r H. rewrite firstn_app. replace (256 - length l)%nat with 0%nat by lia. rewrite firstn_O, app_nil_r. reflexivity. Qed.
Lemma firstn_step : forall {A} (l r acc : list A), acc = firstn 256 l -> (length acc < 256)%nat ->
  firstn 256 (l ++ r) = acc ++ firstn (256 - length acc) r.
Proof.
  intros A l r acc E H. assert (L : (length l < 256)%nat) by (rewrite E in H; rewrite firstn_length in H; lia).
  rewrite (firstn_all2 l) in E by lia. subst acc. rewrite firstn_app, firstn_all2 by lia. reflexivity.
Qed.
Definition upto (s : rng) (n : nat) : list Z := filter (fun t => t <? 8380417) (map (candidate s) (seq 0 n)).
Lemma upto_add : forall s n m, upto s (n + m) = upto s n ++ filter (fun t => t <? 8380417) (map (candidate s) (seq n m)).
Proof. intros. unfold upto. rewrite seq_app, map_app, filter_app. reflexivity. Qed.
Lemma uniform_loop_eq : forall fuel s acc buf p, acc = firstn 256 (upto s p) -> (length buf mod 3 = 0)%nat ->
  forall a, uniform_loop fuel s acc buf (3 * p) = CRet a -> exists n, a = firstn 256 (upto s n) /\ (256 <= length a)%nat.
Proof.
  induction fuel as [|f IH]; intros s acc buf p E M a H; cbn [uniform_loop] in H; destruct (Nat.ltb_spec (length acc) 256) as [L|L].
  - discriminate H.
  - assert (a = acc) as -> by congruence. exists p. auto.
  - rewrite M, Nat.sub_0_r, skipn_all, app_nil_l in H. change SHAKE128_RATE with (3 * 56)%nat in H. rewrite rej_uniform_eq in H.
    replace (3 * p + 3 * 56)%nat with (3 * (p + 56))%nat in H by lia. revert H. apply IH.
    + rewrite upto_add. symmetry. apply firstn_step; assumption.
    + rewrite squeeze_length. reflexivity.
  - assert (a = acc) as -> by congruence. exists p. auto.
Qed.
Lemma uniform_loop_done : forall fuel s acc buf p n, acc = firstn 256 (upto s p) -> (length buf mod 3 = 0)%nat ->
  (256 <= length (upto s n))%nat -> (n <= p + 56 * fuel)%nat -> exists a, uniform_loop fuel s acc buf (3 * p) = CRet a.
Proof.
  induction fuel as [|f IH]; intros s acc buf p n E M G H; cbn [uniform_loop]; destruct (Nat.ltb_spec (length acc) 256) as [L|L]; eauto.
  - exfalso. rewrite E in L. rewrite firstn_length in L. replace p with (n + (p - n))%nat in L by lia. rewrite upto_add, app_length in L. lia.
  - rewrite M, Nat.sub_0_r, skipn_all, app_nil_l. change SHAKE128_RATE with (3 * 56)%nat. rewrite rej_uniform_eq.
    replace (3 * p + 3 * 56)%nat with (3 * (p + 56))%nat by lia. apply IH with (n := n).
    + rewrite upto_add. symmetry. apply firstn_step; assumption.
    + rewrite squeeze_length. reflexivity.
    + exact G.
    + lia.
Qed.
Lemma upto_unique : forall s n m, (256 <= length (upto s n))%nat -> (256 <= length (upto s m))%nat -> firstn 256 (upto s n) = firstn 256 (upto s m).
Proof.
  assert (W : forall s n m, (n <= m)%nat -> (256 <= length (upto s n))%nat -> firstn 256 (upto s n) = firstn 256 (upto s m)).
  { intros s n m H L. replace m with (n + (m - n))%nat by lia. rewrite upto_add. symmetry. apply firstn_more. exact L. }
  intros s n m Hn Hm. destruct (Nat.le_ge_cases n m); [|symmetry]; apply W; assumption.
Qed.
Theorem dil_uniform_spec : forall X seed nonce a,
  (exists fuel, poly_uniform fuel X seed nonce = CRet a) <->
  uniform_spec (shake128 X (seed ++ [nonce mod 256; nonce / 256 mod 256])) a.
Proof.
  intros X seed nonce a. unfold poly_uniform, stream128, nonce_bytes, u8. rewrite Z.shiftr_div_pow2 by lia. change (2 ^ 8) with 256.
  set (s := shake128 X (seed ++ [nonce mod 256; nonce / 256 mod 256])). clearbody s.
  change ((768 + SHAKE128_RATE - 1) / SHAKE128_RATE * SHAKE128_RATE)%nat with (3 * 280)%nat.
  assert (E0 : rej_uniform 256 (squeeze s 0 (3 * 280)) = firstn 256 (upto s 280)) by apply (rej_uniform_eq 280 256 s 0).
  assert (M : (length (squeeze s 0 (3 * 280)) mod 3 = 0)%nat) by (rewrite squeeze_length, Nat.mul_comm; apply Nat.mod_mul; discriminate).
  revert E0. generalize (rej_uniform 256 (squeeze s 0 (3 * 280))). intros acc E0. revert M. generalize (squeeze s 0 (3 * 280)). intros buf M. split.
  - intros (fuel & H). destruct (uniform_loop_eq fuel s acc buf 280 E0 M a H) as (n & E & L). exists n.
    split; [exact E|]. rewrite E in *. rewrite firstn_length in *. lia.
  - intros (n & E & L). fold (upto s n) in E.
    assert (G : (256 <= length (upto s n))%nat) by (rewrite E, firstn_length in L; lia).
    destruct (uniform_loop_done n s acc buf 280 n E0 M G) as (b & Hb); [lia|]. exists n. rewrite Hb. f_equal.
    destruct (uniform_loop_eq n s acc buf 280 E0 M b Hb) as (n' & E' & L'). rewrite E, E'. apply upto_unique; [|exact G].
    rewrite E', firstn_length in L'. lia.
Qed.

(** ** Secret sampling *)
Definition etas (l : list Z) : list Z := map (fun t => 2 - t mod 5) (filter (fun t => t <? 15) l).
Lemma etas_app : forall a b, etas (a ++ b) = etas a ++ etas b.
Proof. intros. unfold etas. rewrite filter_app, map_app. reflexivity. Qed.
Lemma eta_of_eq : forall t, 0 <= t < 16 -> eta_of t = etas [t].
Proof.
  intros t H. unfold eta_of, etas. cbn [filter]. destruct (Z.ltb_spec t 15); [|reflexivity]. cbn [map]. do 2 f_equal.
  rewrite Z.shiftr_div_pow2 by lia. change (2 ^ 10) with 1024.
  assert (E : 205 * t / 1024 = t / 5). 
  { assert (C : t = 0 \/ t = 1 \/ t = 2 \/ t = 3 \/ t = 4 \/ t = 5 \/ t = 6 \/ t = 7 \/ t = 8 \/ t = 9 \/ t = 10 \/ t = 11 \/ t = 12 \/ t = 13 \/ t = 14) by lia.
    repeat destruct C as [->|C]; try reflexivity. subst t. reflexivity. }
  rewrite E. rewrite Z.mod_eq by discriminate. lia.
Qed.
Definition nibs (s : rng) (p m : nat) : list Z := map (nibble s) (seq (2 * p) (2 * m)).
Lemma nibs_S : forall s p m, nibs s p (S m) = [sbyte s p mod 16; sbyte s p / 16] ++ nibs s (S p) m.
Proof.
  intros s p m. unfold nibs. replace (2 * S m)%nat with (S (S (2 * m))) by lia. cbn [seq map app].
  replace (S (S (2 * p))) with (2 * S p)%nat by lia. f_equal; [|f_equal].
  - unfold nibble. assert (E : Nat.even (2 * p) = true) by (apply Nat.even_spec; exists p; reflexivity). rewrite E.
    rewrite Nat.mul_comm, Nat.div_mul by discriminate. reflexivity.
  - unfold nibble. assert (E : Nat.even (S (2 * p)) = false).
    { rewrite Nat.even_succ. apply not_true_iff_false. rewrite Nat.odd_spec. intros [k K]. lia. }
    rewrite E. replace (S (2 * p) / 2)%nat with p; [reflexivity|]. apply (Nat.div_unique _ 2 p 1); lia.
Qed.
Lemma rej_eta_eq : forall m len s p, rej_eta len (squeeze s p m) = firstn len (etas (nibs s p m)).
Proof.
  induction m as [|m IH]; intros len s p; [unfold nibs; cbn; rewrite firstn_nil; reflexivity|].
  rewrite squeeze_S, nibs_S, etas_app. cbn [rej_eta].
  destruct (Nat.eqb_spec len 0) as [->|N]; [reflexivity|]. rewrite IH.
  rewrite (land_mask_mod (sbyte s p) 4 ltac:(lia) : Z.land (sbyte s p) 15 = sbyte s p mod 2 ^ 4). rewrite Z.shiftr_div_pow2 by lia. change (2 ^ 4) with 16.
  pose proof (sbyte_range s p) as B.
  rewrite !eta_of_eq.
  - change [sbyte s p mod 16; sbyte s p / 16] with ([sbyte s p mod 16] ++ [sbyte s p / 16]). rewrite (etas_app [sbyte s p mod 16]).
    set (l := etas [sbyte s p mod 16] ++ etas [sbyte s p / 16]). assert (K : (len - length (firstn len l) = len - length l)%nat) by (rewrite firstn_length; lia).
    rewrite K, firstn_app. reflexivity.
  - split; [apply Z.div_pos; lia|apply Z.div_lt_upper_bound; lia].
  - apply Z.mod_pos_bound. lia.
Qed.
Definition eupto (s : rng) (n : nat) : list Z := etas (nibs s 0 n).
Lemma eupto_add : forall s n m, eupto s (n + m) = eupto s n ++ etas (nibs s n m).
Proof.
  intros. unfold eupto, nibs. rewrite <- etas_app, <- map_app. do 2 f_equal. rewrite Nat.mul_add_distr_l, seq_app. f_equal.
Qed.
Lemma eta_loop_eq : forall fuel s acc p, acc = firstn 256 (eupto s p) ->
  forall a, eta_loop fuel s acc p = CRet a -> exists n, a = firstn 256 (eupto s n) /\ (256 <= length a)%nat.
Proof.
  induction fuel as [|f IH]; intros s acc p E a H; cbn [eta_loop] in H; destruct (Nat.ltb_spec (length acc) 256) as [L|L].
  - discriminate H.
  - assert (a = acc) as -> by congruence. exists p. auto.
  - rewrite rej_eta_eq in H. revert H. apply IH. rewrite eupto_add. symmetry. apply firstn_step; assumption.
  - assert (a = acc) as -> by congruence. exists p. auto.
Qed.
Lemma eta_loop_done : forall fuel s acc p n, acc = firstn 256 (eupto s p) ->
  (256 <= length (eupto s n))%nat -> (n <= p + 136 * fuel)%nat -> exists a, eta_loop fuel s acc p = CRet a.
Proof.
  induction fuel as [|f IH]; intros s acc p n E G H; cbn [eta_loop]; destruct (Nat.ltb_spec (length acc) 256) as [L|L]; eauto.
  - exfalso. rewrite E in L. rewrite firstn_length in L. replace p with (n + (p - n))%nat in L by lia. rewrite eupto_add, app_length in L. lia.
  - rewrite rej_eta_eq. apply IH with (n := n); [|exact G|unfold SHAKE256_RATE; lia].
    rewrite eupto_add. symmetry. apply firstn_step; assumption.
Qed.
Lemma enough : forall s n m, (256 <= length (eupto s n))%nat -> (n <= m)%nat -> firstn 256 (eupto s n) = firstn 256 (eupto s m).
Proof. intros s n m L H. replace m with (n + (m - n))%nat by lia. rewrite eupto_add. symmetry. apply firstn_more. exact L. Qed.
Lemma eupto_nibbles : forall s n, etas (map (nibble s) (seq 0 (2 * n))) = eupto s n. Proof. reflexivity. Qed.
Lemma etas_prefix : forall s n m, (n <= m)%nat -> (256 <= length (etas (map (nibble s) (seq 0 n))))%nat ->
  firstn 256 (etas (map (nibble s) (seq 0 m))) = firstn 256 (etas (map (nibble s) (seq 0 n))).
Proof.
  intros s n m H L. replace m with (n + (m - n))%nat by lia. rewrite seq_app, map_app, etas_app. apply firstn_more. exact L.
Qed.
Theorem dil_eta_spec : forall X seed nonce a,
  (exists fuel, poly_uniform_eta fuel X seed nonce = CRet a) <->
  eta_spec (shake256 X (seed ++ [nonce mod 256; nonce / 256 mod 256])) a.
Proof.
  intros X seed nonce a. unfold poly_uniform_eta, stream256, nonce_bytes, u8. rewrite Z.shiftr_div_pow2 by lia. change (2 ^ 8) with 256.
  set (s := shake256 X (seed ++ [nonce mod 256; nonce / 256 mod 256])). clearbody s.
  change ((136 + SHAKE256_RATE - 1) / SHAKE256_RATE * SHAKE256_RATE)%nat with 136%nat.
  assert (E0 : rej_eta 256 (squeeze s 0 136) = firstn 256 (eupto s 136)) by apply (rej_eta_eq 136 256 s 0).
  revert E0. generalize (rej_eta 256 (squeeze s 0 136)). intros acc E0. split.
  - intros (fuel & H). destruct (eta_loop_eq fuel s acc 136 E0 a H) as (n & E & L). exists (2 * n)%nat. fold (etas (map (nibble s) (seq 0 (2 * n)))).
    rewrite eupto_nibbles. split; [exact E|]. rewrite E in *. rewrite firstn_length in *. lia.
  - intros (n & E & L). fold (etas (map (nibble s) (seq 0 n))) in E.
    assert (G0 : (256 <= length (etas (map (nibble s) (seq 0 n))))%nat) by (rewrite E, firstn_length in L; lia).
    rewrite <- (etas_prefix s n (2 * n)) in E by (try exact G0; lia). rewrite eupto_nibbles in E.
    assert (G : (256 <= length (eupto s n))%nat) by (rewrite E, firstn_length in L; lia).
    destruct (eta_loop_done n s acc 136 n E0 G) as (b & Hb); [lia|]. exists n. rewrite Hb. f_equal.
    destruct (eta_loop_eq n s acc 136 E0 b Hb) as (n' & E' & L').
    assert (G' : (256 <= length (eupto s n'))%nat) by (rewrite E', firstn_length in L'; lia).
    rewrite E, E'. destruct (Nat.le_ge_cases n n'); [symmetry|]; apply enough; assumption.
Qed.

(** ** Challenges *)
Lemma draw_le_iff : forall f s lo i b q, draw_le f s lo i = CRet (b, q) <->
  exists p, (lo <= p)%nat /\ q = S p /\ b = sbyte s p /\ b <= i /\ (forall j, (lo <= j < p)%nat -> i < sbyte s j) /\ (p - lo < f)%nat.
Proof.
  induction f as [|f IH]; intros s lo i b q; cbn [draw_le].
  - split; [discriminate|]. intros (p & _ & _ & _ & _ & _ & H). lia.
  - change (u8 (s lo)) with (sbyte s lo). destruct (Z.ltb_spec i (sbyte s lo)) as [H|H].
    + rewrite IH. split; intros (p & A & -> & -> & B & C & D).
      * exists p. repeat (split; [lia || reflexivity || assumption|]). split; [|lia]. intros j Hj.
        destruct (Nat.eq_dec j lo) as [->|N]; [exact H|]. apply C. lia.
      * exists p. assert (p <> lo) by (intros ->; lia). repeat (split; [lia || reflexivity || assumption|]). split; [|lia].
        intros j Hj. apply C. lia.
    + split.
      * intro E. exists lo. assert (b = sbyte s lo) as -> by congruence. assert (q = S lo) as -> by congruence.
        repeat (split; [lia || reflexivity || assumption|]). lia.
      * intros (p & A & -> & -> & B & C & D). destruct (Nat.eq_dec p lo) as [->|N]; [reflexivity|]. specialize (C lo ltac:(lia)). lia.
Qed.
Lemma ball_ext : forall s pos pos' n, (forall i, (217 <= i < 217 + n)%nat -> pos i = pos' i) -> forall x, ball s pos n x = ball s pos' n x.
Proof.
  intros s pos pos'. induction n as [|n IH]; intros H x; [reflexivity|]. cbn [ball]. rewrite (H (217 + n)%nat) by lia.
  rewrite !IH by (intros; apply H; lia). reflexivity.
Qed.
Lemma neg1_pow : forall k, 0 <= k -> (-1) ^ k = 1 - 2 * (k mod 2).
Proof.
  intros k H. pose proof (Z.div_mod k 2 ltac:(lia)) as E. pose proof (Z.mod_pos_bound k 2 ltac:(lia)) as B.
  assert (D : 0 <= k / 2) by (apply Z.div_pos; lia). rewrite E at 1. rewrite Z.pow_add_r, Z.pow_mul_r by lia.
  change ((-1) ^ 2) with 1. rewrite Z.pow_1_l by exact D. assert (C : k mod 2 = 0 \/ k mod 2 = 1) by lia. destruct C as [-> | ->]; reflexivity.
Qed.
Lemma sign_bit : forall s n, (n < 64)%nat ->
  1 - 2 * Z.land (Z.shiftr (sign_bits (squeeze s 0 8)) (Z.of_nat n)) 1 = (-1) ^ (sbyte s (n / 8) / 2 ^ Z.of_nat (n mod 8)).
Proof.
  intros s n H.
  assert (R : (n mod 8 < 8)%nat) by (apply Nat.mod_upper_bound; discriminate).
  assert (T : Z.testbit (sign_bits (squeeze s 0 8)) (Z.of_nat n) = Z.testbit (sbyte s (n / 8)) (Z.of_nat (n mod 8))).
  { pose proof (Nat.div_mod n 8 ltac:(discriminate)) as E. set (a := (n / 8)%nat) in *. set (r := (n mod 8)%nat) in *. clearbody a r.
    assert (A : (a < 8)%nat) by lia. unfold sign_bits. unfold squeeze. cbn [seq fold_left map at_ nth].
    fold (sbyte s 0) (sbyte s 1) (sbyte s 2) (sbyte s 3) (sbyte s 4) (sbyte s 5) (sbyte s 6) (sbyte s 7).
    rewrite !Z.lor_spec, !Z.shiftl_spec by lia. rewrite Z.bits_0. cbn [orb].
    assert (N : forall i x, 0 <= x < 0 \/ 8 <= x \/ x < 0 -> Z.testbit (sbyte s i) x = false).
    { intros i x [Hx|[Hx|Hx]]; [lia| |apply Z.testbit_neg_r; exact Hx]. apply (testbit_high _ 8); [apply sbyte_range|exact Hx]. }
    assert (C : a = 0%nat \/ a = 1%nat \/ a = 2%nat \/ a = 3%nat \/ a = 4%nat \/ a = 5%nat \/ a = 6%nat \/ a = 7%nat) by lia.
    repeat destruct C as [C|C]; subst a;
      rewrite ?(N 0%nat), ?(N 1%nat), ?(N 2%nat), ?(N 3%nat), ?(N 4%nat), ?(N 5%nat), ?(N 6%nat), ?(N 7%nat) by lia;
      rewrite ?orb_false_r, ?orb_false_l; f_equal; lia. }
  rewrite neg1_pow by (apply Z.div_pos; [apply sbyte_range|lia]).
  rewrite (land_mask_mod (Z.shiftr (sign_bits (squeeze s 0 8)) (Z.of_nat n)) 1 ltac:(lia) :
    Z.land (Z.shiftr (sign_bits (squeeze s 0 8)) (Z.of_nat n)) 1 = Z.shiftr (sign_bits (squeeze s 0 8)) (Z.of_nat n) mod 2). f_equal. f_equal.
  rewrite <- !Z.bit0_mod. rewrite Z.shiftr_spec by lia. rewrite Z.add_0_l, T.
  rewrite <- Z.shiftr_div_pow2 by lia. rewrite Z.shiftr_spec by lia. rewrite Z.add_0_l. reflexivity.
Qed.
Definition low (pos : nat -> nat) (i : nat) : nat := if (i =? 217)%nat then 8%nat else S (pos (i - 1)%nat).
Definition draws (s : rng) (pos : nat -> nat) (n : nat) : Prop := forall i, (217 <= i < 217 + n)%nat ->
  (low pos i <= pos i)%nat /\ sbyte s (pos i) <= Z.of_nat i /\ forall p, (low pos i <= p < pos i)%nat -> Z.of_nat i < sbyte s p.
Lemma step_eq : forall s pos n c c2, (n < 39)%nat -> length c = 256%nat -> (forall x, (x < 256)%nat -> at_ c x = ball s pos n x) ->
  sbyte s (pos (217 + n)%nat) <= Z.of_nat (217 + n) ->
  c2 = upd (upd c (217 + n) (at_ c (Z.to_nat (sbyte s (pos (217 + n)%nat))))) (Z.to_nat (sbyte s (pos (217 + n)%nat)))
        (1 - 2 * Z.land (Z.shiftr (sign_bits (squeeze s 0 8)) (Z.of_nat n)) 1) ->
  length c2 = 256%nat /\ forall x, (x < 256)%nat -> at_ c2 x = ball s pos (S n) x.
Proof.
  intros s pos n c c2 Hn L B Hb ->. split; [rewrite !upd_length; exact L|]. intros x Hx. cbn [ball]. rewrite <- sign_bit by lia.
  pose proof (sbyte_range s (pos (217 + n)%nat)) as R. set (j := Z.to_nat (sbyte s (pos (217 + n)%nat))) in *.
  assert (Hj : (j <= 217 + n)%nat) by (unfold j; lia).
  destruct (Nat.eqb_spec x j) as [->|N1]; [apply at_upd_eq; rewrite upd_length; lia|].
  rewrite at_upd_neq by auto. destruct (Nat.eqb_spec x (217 + n)) as [->|N2].
  - rewrite at_upd_eq by lia. apply B. lia.
  - rewrite at_upd_neq by auto. apply B. exact Hx.
Qed.
Lemma foldM_snoc : forall {S X} (f : S -> X -> crun S) l x s, foldM f (l ++ [x]) s = (do s' <- foldM f l s ;; f s' x).
Proof.
  intros S X f. induction l as [|y l IH]; intros x s; cbn [app foldM cbind]; [destruct (f s x); reflexivity|].
  destruct (f s y); cbn [cbind]; [apply IH|reflexivity|reflexivity].
Qed.
Lemma shuffle_fwd : forall fuel s n st, (n <= 39)%nat ->
  foldM (challenge_step fuel s) (seq 217 n) (repeat 0 256, sign_bits (squeeze s 0 8), 8%nat) = CRet st ->
  exists pos, draws s pos n /\ snd st = low pos (217 + n) /\ snd (fst st) = Z.shiftr (sign_bits (squeeze s 0 8)) (Z.of_nat n) /\
    length (fst (fst st)) = 256%nat /\ forall x, (x < 256)%nat -> at_ (fst (fst st)) x = ball s pos n x.
Proof.
  induction n as [|n IH]; intros st Hn H.
  - cbn [seq foldM] in H. assert (st = (repeat 0 256, sign_bits (squeeze s 0 8), 8%nat)) as -> by congruence. cbn [fst snd].
    exists (fun _ => 0%nat). split; [intros i Hi; lia|]. split; [reflexivity|]. split; [reflexivity|]. split; [apply repeat_length|].
    intros x Hx. cbn [ball]. unfold at_. apply nth_repeat.
  - rewrite seq_S, foldM_snoc in H.
    destruct (foldM (challenge_step fuel s) (seq 217 n) (repeat 0 256, sign_bits (squeeze s 0 8), 8%nat)) as [[[c sg] q]| |]; try discriminate H.
    rewrite cbind_ret in H. destruct (IH (c, sg, q)) as (pos & D & Eq & Es & L & B); [lia|reflexivity|]. cbn [fst snd] in *. subst q sg.
    unfold challenge_step in H. destruct (draw_le fuel s (low pos (217 + n)) (Z.of_nat (217 + n))) as [[b q]| |] eqn:Ed; try discriminate H.
    rewrite cbind_ret in H. apply draw_le_iff in Ed. destruct Ed as (p & P1 & -> & -> & P2 & P3 & _).
    set (pos' := fun i => if (i =? 217 + n)%nat then p else pos i).
    assert (Ep : pos' (217 + n)%nat = p) by (unfold pos'; rewrite Nat.eqb_refl; reflexivity).
    assert (Eo : forall i, (i < 217 + n)%nat -> pos' i = pos i).
    { intros i Hi. unfold pos'. destruct (Nat.eqb_spec i (217 + n)); [lia|reflexivity]. }
    assert (El : forall i, (i <= 217 + n)%nat -> (217 <= i)%nat -> low pos' i = low pos i).
    { intros i Hi Hi2. unfold low. destruct (Nat.eqb_spec i 217); [reflexivity|]. rewrite Eo by lia. reflexivity. }
    assert (B' : forall x, (x < 256)%nat -> at_ c x = ball s pos' n x).
    { intros x Hx. rewrite B by exact Hx. apply ball_ext. intros i Hi. symmetry. apply Eo. lia. }
    destruct (step_eq s pos' n c (fst (fst st)) ltac:(lia) L B') as [L2 B2].
    + rewrite Ep. exact P2.
    + rewrite Ep. apply (f_equal (fun r => match r with CRet x => fst (fst x) | _ => [] end)) in H. cbn [fst] in H. symmetry. exact H.
    + exists pos'. split.
      { intros i Hi. destruct (Nat.eq_dec i (217 + n)) as [->|N].
        - rewrite El by lia. rewrite Ep. split; [exact P1|]. split; [exact P2|exact P3].
        - rewrite El, Eo by lia. apply D. lia. }
      apply (f_equal (fun r => match r with CRet x => (snd (fst x), snd x) | _ => (0, 0%nat) end)) in H. cbn [fst snd] in H.
      apply pair_equal_spec in H. destruct H as [H1 H2].
      split; [rewrite <- H2; unfold low; destruct (Nat.eqb_spec (217 + S n) 217); [lia|]; replace (217 + S n - 1)%nat with (217 + n)%nat by lia; rewrite Ep; reflexivity|].
      split; [rewrite <- H1, Z.shiftr_shiftr by lia; f_equal; lia|]. split; [exact L2|exact B2].
Qed.
Lemma draws_mono : forall s pos n, draws s pos n -> forall i, (217 <= i < 217 + n)%nat -> (pos i <= pos (217 + n - 1)%nat)%nat.
Proof.
  induction n as [|n IH]; intros D i Hi; [lia|]. replace (217 + S n - 1)%nat with (217 + n)%nat by lia.
  destruct (Nat.eq_dec i (217 + n)) as [->|N]; [lia|].
  assert (H : (pos i <= pos (217 + n - 1))%nat) by (apply IH; [intros k Hk; apply D; lia|lia]).
  destruct (D (217 + n)%nat) as [G _]; [lia|]. unfold low in G. destruct (Nat.eqb_spec (217 + n) 217); [lia|]. lia.
Qed.
Lemma shuffle_bwd : forall fuel s pos n, (n <= 39)%nat -> draws s pos n -> (forall i, (217 <= i < 217 + n)%nat -> (pos i < fuel)%nat) ->
  exists c, foldM (challenge_step fuel s) (seq 217 n) (repeat 0 256, sign_bits (squeeze s 0 8), 8%nat) =
     CRet (c, Z.shiftr (sign_bits (squeeze s 0 8)) (Z.of_nat n), low pos (217 + n)) /\
    length c = 256%nat /\ forall x, (x < 256)%nat -> at_ c x = ball s pos n x.
Proof.
  induction n as [|n IH]; intros Hn D F.
  - exists (repeat 0 256). split; [reflexivity|]. split; [apply repeat_length|]. intros x Hx. cbn [ball]. unfold at_. apply nth_repeat.
  - destruct IH as (c & E & L & B); [lia|intros i Hi; apply D; lia|intros i Hi; apply F; lia|].
    rewrite seq_S, foldM_snoc, E, cbind_ret. destruct (D (217 + n)%nat) as (P1 & P2 & P3); [lia|].
    unfold challenge_step. assert (Ed : draw_le fuel s (low pos (217 + n)) (Z.of_nat (217 + n)) = CRet (sbyte s (pos (217 + n)%nat), S (pos (217 + n)%nat))).
    { apply draw_le_iff. exists (pos (217 + n)%nat). specialize (F (217 + n)%nat ltac:(lia)).
      split; [exact P1|]. split; [reflexivity|]. split; [reflexivity|]. split; [exact P2|]. split; [exact P3|lia]. }
    rewrite Ed, cbind_ret. eexists. split.
    + apply f_equal. apply f_equal2; [apply f_equal2; [reflexivity|rewrite Z.shiftr_shiftr by lia; f_equal; lia]|].
      unfold low. destruct (Nat.eqb_spec (217 + S n) 217); [lia|]. replace (217 + S n - 1)%nat with (217 + n)%nat by lia. reflexivity.
    + eapply step_eq; [lia|exact L|exact B|exact P2|reflexivity].
Qed.
Theorem dil_challenge_spec : forall X seed c, length seed = 32%nat ->
  ((exists fuel, poly_challenge fuel X seed = CRet c) <-> challenge_spec (shake256 X seed) c).
Proof.
  intros X seed c Ls. unfold poly_challenge. rewrite (firstn_all2 seed) by lia. set (s := shake256 X seed). clearbody s.
  change (256 - TAU)%nat with 217%nat. change TAU with 39%nat. split.
  - intros (fuel & H).
    destruct (foldM (challenge_step fuel s) (seq 217 39) (repeat 0 256, sign_bits (squeeze s 0 8), 8%nat)) as [st| |] eqn:E; try discriminate H.
    rewrite cbind_ret in H. destruct (shuffle_fwd fuel s 39 st (le_n _) E) as (pos & D & _ & _ & L & B).
    destruct st as [[c' sg] q]. cbn [fst snd] in *. assert (c' = c) as -> by congruence. exists pos.
    split; [|split; [exact L|exact B]]. intros i Hi. apply D. exact Hi.
  - intros (pos & D & L & B). exists (S (pos 255%nat)).
    assert (D' : draws s pos 39) by (intros i Hi; apply D; exact Hi).
    destruct (shuffle_bwd (S (pos 255%nat)) s pos 39 (le_n _) D') as (c' & E & L' & B').
    { intros i Hi. pose proof (draws_mono s pos 39 D' i Hi) as G. change (217 + 39 - 1)%nat with 255%nat in G. lia. }
    rewrite E, cbind_ret. f_equal. apply (nth_ext _ _ 0 0); [congruence|]. rewrite L'. intros x Hx.
    etransitivity; [apply B'; exact Hx|]. symmetry. apply B. exact Hx.
Qed.
