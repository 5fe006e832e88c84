(** * AvxEta: the secret vectors of the AVX2 build of Dilithium2
    (rejsample.c 313-408 and poly.c 463-564 of pqclean/crypto_sign/dilithium2/avx2). *)
From Coq Require Import ZArith List Lia Bool.
From Verif Require Import Keccak KeccakSpec KeccakPerm KeccakSponge KeccakProps PropsKeccak KeccakX4 KeccakX4Ok FipsX4Ok.
From Verif Require Import Base Bits SaberPoly SaberRing DilArith DilNtt DilPoly DilPack DilOps DilSample DilSampleSpec DilSign DilCorrect DilProps DilShake DilShake2.
From Verif Require Import AvxMachine AvxNtt AvxPoint AvxPoly AvxBytes AvxBytesOk AvxCodecOk AvxSign AvxSample AvxShake.
Import ListNotations.
Open Scope Z_scope.
Local Opaque StatePermute keccak_f f1600x4 keccakx4_squeezeblocks keccakx4_absorb_once.

(** ** Intrinsics *)
(** Bytes of a register as signed numbers, and the words of it in memory order. *)
Definition s8 (x : Z) : Z := if x <? 128 then x else x - 256.
(** [_mm_loadu_si128]. *)
Definition loadu128 (b : bytes) (off : nat) : crun bytes := if (off + 16 <=? length b)%nat then CRet (slice b off 16) else CUB.
(** [_mm256_cvtepu8_epi16]: 16 words; [_mm256_slli_epi16] by 4; the byte view of words. *)
Definition words_bytes (l : list Z) : bytes := flat_map (fun w => [w mod 256; w / 256]) l.
Definition slli4_epi16 (w : Z) : Z := (16 * w) mod 65536.
(** [_mm256_sub_epi8]. *)
Definition sub_epi8 (x y : Z) : Z := (x - y) mod 256.
(** [_mm256_movemask_epi8]: 32 bits. *)
Definition movemask_epi8 (l : bytes) : Z := fold_right (fun b m => (if 128 <=? b then 1 else 0) + 2 * m) 0 l.
(** [_mm_bsrli_si128] by 8. *)
Definition bsrli8 (g : bytes) : bytes := skipn 8 g ++ repeat 0 8.
(** [_mm_shuffle_epi8] of [g] by indices that are not negative. *)
Definition shuffle128 (g : bytes) (idx : list Z) : bytes := map (fun i => at_ g (Z.to_nat (i mod 16))) idx.
(** [_mm256_mulhrs_epi16] and [_mm256_mullo_epi16] on one word. *)
Definition mulhrs16 (x y : Z) : Z := (Z.shiftr (x * y) 14 + 1) / 2.
Definition mullo16 (x y : Z) : Z := (x * y) mod 65536.
(** A word operation on a signed 32-bit lane. *)
Definition by_words (f : Z -> Z -> Z) (x y : Z) : Z :=
  i32 ((f (s16 x) (s16 y)) mod 65536 + 65536 * ((f (s16 (x / 65536)) (s16 (y / 65536))) mod 65536)).

(** ** rejsample.c 313-390 *)
(** 328-331: the nibbles of 16 bytes, one per byte. *)
Definition nibbles (b : bytes) : bytes :=
  words_bytes (map (fun x => Z.land (Z.lor x (slli4_epi16 x)) 3855) b).
(** 339-344: eight signed bytes become eight lanes. *)
Definition eta_lane (x : Z) : Z :=
  let f1 := s8 x in
  let f2 := by_words mulhrs16 f1 (-6560) in
  let f2 := by_words mullo16 f2 5 in
  add_epi32 f1 f2.
(** 337-346: one of the four steps; [g] the half register, [good] its mask. *)
Definition eta_step (r : list Z) (ctr : nat) (g : bytes) (good : Z) : crun (list Z * nat) :=
  let g1 := nth (Z.to_nat good) idxlut [] ++ repeat 0 8 in
  let g1 := shuffle128 g g1 in
  do r' <- patch r ctr (map eta_lane (firstn 8 g1)) ;;
  CRet (r', (ctr + popcnt (Z.to_nat good))%nat).
(** 326-390: the vector loop, at most [fuel] turns. *)
Fixpoint eta_vec (fuel : nat) (buf : bytes) (r : list Z) (ctr pos : nat) : crun (list Z * nat * nat) :=
  if (ctr <=? 248)%nat && (pos <=? 120)%nat then
    match fuel with
    | O => CFuel
    | S f =>
        do b <- loadu128 buf pos ;;
        let f0 := nibbles b in
        let good := movemask_epi8 (map (fun x => sub_epi8 x 15) f0) in
        let f0 := map (fun x => sub_epi8 2 x) f0 in
        let g0 := firstn 16 f0 in
        do (r, ctr) <- eta_step r ctr g0 (Z.land good 255) ;;
        let good := Z.shiftr good 8 in
        if (248 <? ctr)%nat then CRet (r, ctr, (pos + 4)%nat) else
        let g0 := bsrli8 g0 in
        do (r, ctr) <- eta_step r ctr g0 (Z.land good 255) ;;
        let good := Z.shiftr good 8 in
        if (248 <? ctr)%nat then CRet (r, ctr, (pos + 8)%nat) else
        let g0 := skipn 16 f0 in
        do (r, ctr) <- eta_step r ctr g0 (Z.land good 255) ;;
        let good := Z.shiftr good 8 in
        if (248 <? ctr)%nat then CRet (r, ctr, (pos + 12)%nat) else
        let g0 := bsrli8 g0 in
        do (r, ctr) <- eta_step r ctr g0 good ;;
        eta_vec f buf r ctr (pos + 16)
    end
  else CRet (r, ctr, pos).
(** 392-406: the scalar loop. *)
Fixpoint eta_tail (fuel : nat) (buf : bytes) (r : list Z) (ctr pos : nat) : crun (list Z * nat) :=
  if (ctr <? 256)%nat && (pos <? 136)%nat then
    match fuel with
    | O => CFuel
    | S f =>
        if (pos <? length buf)%nat then
          let t0 := Z.land (at_ buf pos) 15 in
          let t1 := Z.shiftr (at_ buf pos) 4 in
          do (r, ctr) <- (if t0 <? 15 then do r' <- patch r ctr [2 - (t0 - Z.shiftr (205 * t0) 10 * 5)] ;; CRet (r', S ctr) else CRet (r, ctr)) ;;
          do (r, ctr) <- (if (t1 <? 15) && (ctr <? 256)%nat then do r' <- patch r ctr [2 - (t1 - Z.shiftr (205 * t1) 10 * 5)] ;; CRet (r', S ctr) else CRet (r, ctr)) ;;
          eta_tail f buf r ctr (S pos)
        else CUB
    end
  else CRet (r, ctr).
Definition rej_eta_avx (r : list Z) (buf : bytes) : crun (list Z * nat) :=
  do (r, ctr, pos) <- eta_vec 9 buf r 0 0 ;; eta_tail 136 buf r ctr pos.

(** ** poly.c 513-564: [poly_uniform_eta_4x]; 463-486 is the scalar [rej_eta] of the portable build. *)
Definition eta_refill_c (o : bytes) (ac : poly * nat) : crun (poly * nat) :=
  let '(a, ctr) := ac in
  let l := rej_eta (256 - ctr) (firstn SHAKE256_RATE o) in
  do a' <- patch a ctr l ;; CRet (a', (ctr + length l)%nat).
Fixpoint eta4_loop_c (fuel : nat) (yr : list KeccakX4.vec) (bufs : list bytes) (s : list KeccakX4.vec) (st : list (poly * nat)) : crun (list poly) :=
  if existsb (fun ac => (snd ac <? 256)%nat) st then
    match fuel with
    | O => CFuel
    | S f => do (o, s) <- shake256x4_squeezeblocks yr 1 s ;;
             let bufs := map2 overwrite bufs o in
             do st' <- zipM eta_refill_c bufs st ;; eta4_loop_c f yr bufs s st'
    end
  else CRet (map fst st).
Definition eta_4x_c (e : ctx) (yr : list KeccakX4.vec) (fuel : nat) (seed : bytes) (nonces : list Z) : crun (list poly) :=
  let bufs := map (seed_buf e (firstn 64 seed) 136) nonces in
  do s <- shake256x4_absorb_once yr bufs 66 ;;
  do (o, s) <- shake256x4_squeezeblocks yr 1 s ;;
  let bufs := map2 overwrite bufs o in
  do st <- mapM (rej_eta_avx (raw e 256)) bufs ;;
  eta4_loop_c fuel yr bufs s st.

(** ** One register *)
Definition nib2 (b : Z) : list Z := [Z.land b 15; Z.shiftr b 4].
Lemma nibble_word : forall x, is_byte x -> let w := Z.land (Z.lor x (slli4_epi16 x)) 3855 in [w mod 256; w / 256] = nib2 x.
Proof.
  assert (G : forallb (fun k => let x := Z.of_nat k in let w := Z.land (Z.lor x (slli4_epi16 x)) 3855 in
    (w mod 256 =? Z.land x 15) && (w / 256 =? Z.shiftr x 4)) (seq 0 256) = true) by (vm_compute; reflexivity).
  intros x H. rewrite forallb_forall in G. unfold is_byte in H. specialize (G (Z.to_nat x)). rewrite Z2Nat.id in G by lia.
  specialize (G ltac:(apply in_seq; lia)). cbv zeta in *. apply andb_true_iff in G. destruct G as [G1 G2]. apply Z.eqb_eq in G1, G2.
  unfold nib2. rewrite G1, G2. reflexivity.
Qed.
Lemma nibbles_ok : forall b, is_bytes b -> nibbles b = flat_map nib2 b.
Proof.
  intros b F. unfold nibbles, words_bytes. induction F as [|x b Hx F IH]; [reflexivity|]. cbn [map flat_map]. rewrite IH, (nibble_word x Hx). reflexivity.
Qed.
Lemma nib2_range : forall b, is_byte b -> Forall (fun t => 0 <= t < 16) (nib2 b).
Proof.
  intros b H. unfold is_byte in H. unfold nib2. constructor; [|constructor; [|constructor]].
  - change 15 with (Z.ones 4). rewrite Z.land_ones by lia. apply Z.mod_pos_bound. lia.
  - rewrite Z.shiftr_div_pow2 by lia. change (2 ^ 4) with 16. split; [apply Z.div_pos; lia|apply Z.div_lt_upper_bound; lia].
Qed.
Lemma nibs_range : forall b, is_bytes b -> Forall (fun t => 0 <= t < 16) (flat_map nib2 b).
Proof. intros b F. induction F as [|x b Hx F IH]; [constructor|]. cbn [flat_map]. apply Forall_app. split; [apply nib2_range, Hx|exact IH]. Qed.
(** A candidate below 15 is accepted. *)
Definition lt15 (t : Z) : bool := t <? 15.
Definition etaval (t : Z) : Z := 2 - (t - Z.shiftr (205 * t) 10 * 5).
Lemma eta_of_alt : forall t, eta_of t = if lt15 t then [etaval t] else [].
Proof. reflexivity. Qed.
Lemma eta_of_filter : forall l, flat_map eta_of l = map etaval (filter lt15 l).
Proof. induction l as [|t l IH]; [reflexivity|]. cbn [flat_map filter]. rewrite IH, eta_of_alt. destruct (lt15 t); reflexivity. Qed.
Lemma eta_lane_ok : forall t, 0 <= t < 15 -> eta_lane (sub_epi8 2 t) = etaval t.
Proof.
  assert (G : forallb (fun k => eta_lane (sub_epi8 2 (Z.of_nat k)) =? etaval (Z.of_nat k)) (seq 0 15) = true) by (vm_compute; reflexivity).
  intros t H. rewrite forallb_forall in G. specialize (G (Z.to_nat t)). rewrite Z2Nat.id in G by lia. apply Z.eqb_eq, G, in_seq. lia.
Qed.
Definition zmask (l : list bool) : Z := Z.of_nat (bmask l).
Lemma good_bmask : forall l, Forall (fun t => 0 <= t < 16) l -> movemask_epi8 (map (fun x => sub_epi8 x 15) l) = zmask (map lt15 l).
Proof.
  intros l F. unfold zmask. induction F as [|t l Ht F IH]; [reflexivity|]. cbn [map movemask_epi8 fold_right bmask] in *.
  fold (movemask_epi8 (map (fun x => sub_epi8 x 15) l)). fold (bmask (map lt15 l)). rewrite IH. rewrite Nat2Z.inj_add, Nat2Z.inj_mul.
  assert (E : (if 128 <=? sub_epi8 t 15 then 1 else 0) = Z.of_nat (if lt15 t then 1%nat else 0%nat)); [|rewrite E; reflexivity].
  unfold sub_epi8, lt15. destruct (Z.ltb_spec t 15) as [H|H].
  - replace (t - 15) with (t + 241 + (-1) * 256) by lia. rewrite Z.mod_add by lia. rewrite Z.mod_small by lia. destruct (Z.leb_spec 128 (t + 241)); [reflexivity|lia].
  - assert (t = 15) as -> by lia. reflexivity.
Qed.
Lemma pow2_S : forall n, 2 ^ Z.of_nat (S n) = 2 * 2 ^ Z.of_nat n.
Proof. intro n. rewrite Nat2Z.inj_succ. apply Z.pow_succ_r. lia. Qed.
Lemma bmask_cons : forall x l, Z.of_nat (bmask (x :: l)) = (if x then 1 else 0) + 2 * Z.of_nat (bmask l).
Proof. intros x l. change (bmask (x :: l)) with ((if x then 1 else 0) + 2 * bmask l)%nat. rewrite Nat2Z.inj_add, Nat2Z.inj_mul. destruct x; reflexivity. Qed.
Lemma bmask_app : forall a b, Z.of_nat (bmask (a ++ b)) = Z.of_nat (bmask a) + 2 ^ Z.of_nat (length a) * Z.of_nat (bmask b).
Proof.
  intros a b. induction a as [|x a IH].
  - change (bmask ([] ++ b)) with (bmask b). change (bmask []) with 0%nat. change (2 ^ Z.of_nat (length (@nil bool))) with 1. lia.
  - change ((x :: a) ++ b) with (x :: a ++ b). rewrite !bmask_cons, IH. change (length (x :: a)) with (S (length a)). rewrite pow2_S. lia.
Qed.
Lemma bmask_lt : forall a, Z.of_nat (bmask a) < 2 ^ Z.of_nat (length a).
Proof.
  induction a as [|x a IH]; [change (2 ^ Z.of_nat (length (@nil bool))) with 1; change (bmask []) with 0%nat; lia|].
  rewrite bmask_cons. change (length (x :: a)) with (S (length a)). rewrite pow2_S. destruct x; lia.
Qed.
Lemma mask_split : forall a b, length a = 8%nat -> Z.land (zmask (a ++ b)) 255 = zmask a /\ Z.shiftr (zmask (a ++ b)) 8 = zmask b.
Proof.
  intros a b L. unfold zmask. rewrite bmask_app, L. pose proof (bmask_lt a) as H. rewrite L in H. change (2 ^ Z.of_nat 8) with 256 in *.
  assert (P : 0 <= Z.of_nat (bmask a)) by lia. revert H P. generalize (Z.of_nat (bmask a)) (Z.of_nat (bmask b)). intros u v H P. split.
  - change 255 with (Z.ones 8). rewrite Z.land_ones by lia. change (2 ^ 8) with 256. rewrite Z.mul_comm, Z.mod_add by lia. apply Z.mod_small. lia.
  - rewrite Z.shiftr_div_pow2 by lia. change (2 ^ 8) with 256. rewrite Z.mul_comm, Z.div_add by lia. rewrite Z.div_small by lia. reflexivity.
Qed.

(** ** One step *)
Local Opaque idxlut popcnt bmask.
Lemma eta_step_ok : forall r ctr ts g, length r = 256%nat -> (ctr <= 248)%nat -> length ts = 8%nat -> Forall (fun t => 0 <= t < 16) ts ->
  (forall j, (j < 8)%nat -> at_ g j = sub_epi8 2 (nth j ts 0)) ->
  exists r', eta_step r ctr g (zmask (map lt15 ts)) = CRet (r', (ctr + length (flat_map eta_of ts))%nat) /\ length r' = 256%nat /\
    firstn (ctr + length (flat_map eta_of ts)) r' = firstn ctr r ++ flat_map eta_of ts.
Proof.
  intros r ctr ts g Lr Hc Lt Ft Hg. unfold eta_step, zmask. rewrite Nat2Z.id. cbv zeta.
  destruct (lut_ok (map lt15 ts)) as (P & R & G & S); [rewrite map_length; exact Lt|].
  set (row := nth (bmask (map lt15 ts)) idxlut []) in *. set (pc := popcnt (bmask (map lt15 ts))) in *.
  unfold shuffle128. rewrite map_app, firstn_app, map_length, R, Nat.sub_diag, firstn_O, app_nil_r. rewrite firstn_all2 by (rewrite map_length; lia).
  set (src := map eta_lane (map (fun i => at_ g (Z.to_nat (i mod 16))) row)).
  assert (Ls : length src = 8%nat) by (unfold src; rewrite !map_length; exact R).
  pose proof (chosen_le (map lt15 ts)) as CL.
  destruct (patch_prefix r ctr src pc) as (r' & E1 & E2 & E3); [rewrite Ls; lia|rewrite Ls; lia|].
  assert (F : firstn pc src = flat_map eta_of ts).
  { unfold src. rewrite map_map, firstn_map, S, map_map.
    assert (C : map (fun j => at_ ts j) (chosen (map lt15 ts)) = filter lt15 ts) by (unfold chosen; rewrite <- Lt; apply select_filter).
    rewrite eta_of_filter, <- C, map_map. apply map_ext_in. intros j Hj. unfold chosen in Hj. apply filter_In in Hj. destruct Hj as [Hj Hb]. apply in_seq in Hj.
    rewrite Z.mod_small by lia. rewrite Nat2Z.id. rewrite Hg by lia. unfold at_. apply eta_lane_ok.
    rewrite (nth_indep _ false (lt15 0)) in Hb by (rewrite map_length; lia). rewrite map_nth in Hb. unfold lt15 in Hb. apply Z.ltb_lt in Hb.
    rewrite Forall_forall in Ft. assert (In (nth j ts 0) ts) as I by (apply nth_In; lia). specialize (Ft _ I). lia. }
  assert (Lf : length (flat_map eta_of ts) = pc) by (rewrite <- F, firstn_length, Ls; lia).
  rewrite E1. cbn [cbind]. exists r'. rewrite Lf. split; [reflexivity|]. split; [congruence|]. rewrite E3, F. reflexivity.
Qed.

(** ** The reference on a run of bytes *)
Definition etas (b : bytes) : list Z := flat_map eta_of (flat_map nib2 b).
Lemma eta_of_le : forall t, (length (eta_of t) <= 1)%nat.
Proof. intro t. rewrite eta_of_alt. destruct (lt15 t); cbn; lia. Qed.
Lemma etas_le : forall b, (length (etas b) <= 2 * length b)%nat.
Proof.
  intro b. unfold etas. induction b as [|x b IH]; [cbn; lia|]. cbn [flat_map nib2 app length]. rewrite !app_length.
  pose proof (eta_of_le (Z.land x 15)). pose proof (eta_of_le (Z.shiftr x 4)). lia.
Qed.
Lemma rej_eta_run : forall b len rest, (2 * length b <= len)%nat -> rej_eta len (b ++ rest) = etas b ++ rej_eta (len - length (etas b)) rest.
Proof.
  induction b as [|x b IH]; intros len rest H.
  - cbn [app etas flat_map length]. rewrite Nat.sub_0_r. reflexivity.
  - cbn [length] in H. cbn [app rej_eta]. destruct (Nat.eqb_spec len 0) as [E|_]; [lia|]. cbv zeta.
    unfold etas. cbn [flat_map nib2 app]. change (flat_map eta_of (flat_map nib2 b)) with (etas b).
    pose proof (eta_of_le (Z.land x 15)). pose proof (eta_of_le (Z.shiftr x 4)). set (u := eta_of (Z.land x 15)) in *. set (v := eta_of (Z.shiftr x 4)) in *.
    rewrite firstn_all2 by (rewrite app_length; lia). rewrite IH by (rewrite app_length; lia). rewrite <- !app_assoc. f_equal. f_equal. f_equal.
    f_equal. rewrite !app_length. lia.
Qed.
Lemma rej_eta_O : forall b, rej_eta 0 b = []. Proof. intros [|? ?]; reflexivity. Qed.
Lemma rej_eta_le : forall b len, (length (rej_eta len b) <= len)%nat.
Proof.
  induction b as [|x b IH]; intro len; cbn [rej_eta]; [cbn; lia|]. destruct (len =? 0)%nat; [cbn; lia|]. cbv zeta.
  set (l := firstn len _). assert (Ll : (length l <= len)%nat) by (unfold l; rewrite firstn_length; lia). clearbody l. rewrite app_length. specialize (IH (len - length l)%nat). lia.
Qed.

(** ** [rej_eta_avx] *)
Section Rej.
Variable buf : bytes.
Hypothesis LB : (136 <= length buf)%nat.
Hypothesis BB : is_bytes buf.
Definition eta_target : list Z := rej_eta 256 (slice buf 0 136).
Definition eta_inv (r : list Z) (ctr pos : nat) : Prop := length r = 256%nat /\ (ctr <= 256)%nat /\ (pos <= 136)%nat /\
  firstn ctr r ++ rej_eta (256 - ctr) (slice buf pos (136 - pos)) = eta_target.
Lemma eta_quarter : forall r ctr pos g, eta_inv r ctr pos -> (ctr <= 248)%nat -> (pos + 4 <= 136)%nat ->
  (forall j, (j < 8)%nat -> at_ g j = sub_epi8 2 (nth j (flat_map nib2 (slice buf pos 4)) 0)) ->
  exists r' ctr', eta_step r ctr g (zmask (map lt15 (flat_map nib2 (slice buf pos 4)))) = CRet (r', ctr') /\ eta_inv r' ctr' (pos + 4).
Proof.
  intros r ctr pos g (Lr & Hc' & Hpos & T) Hc Hp Hg.
  set (b := slice buf pos 4) in *. assert (Lb : length b = 4%nat) by (unfold b; apply slice_length; lia).
  assert (Ln : length (flat_map nib2 b) = 8%nat). { destruct b as [|x0 [|x1 [|x2 [|x3 [|? ?]]]]]; try discriminate Lb. reflexivity. }
  destruct (eta_step_ok r ctr (flat_map nib2 b) g Lr Hc Ln) as (r' & E & L' & F); [apply nibs_range, slice_bytes, BB|exact Hg|].
  exists r', (ctr + length (flat_map eta_of (flat_map nib2 b)))%nat. split; [exact E|]. change (flat_map eta_of (flat_map nib2 b)) with (etas b) in *.
  pose proof (etas_le b) as EL. rewrite Lb in EL. split; [exact L'|]. split; [lia|]. split; [lia|].
  rewrite F, <- T, <- app_assoc. f_equal. rewrite (slice_split buf pos (136 - pos) 4) by lia. fold b. rewrite rej_eta_run by (rewrite Lb; lia).
  f_equal. f_equal; [lia|]. f_equal. lia.
Qed.
Lemma slice16 : forall pos, slice buf pos 16 = slice buf pos 4 ++ slice buf (pos + 4) 4 ++ slice buf (pos + 8) 4 ++ slice buf (pos + 12) 4.
Proof.
  intro pos. rewrite (slice_split buf pos 16 4) by lia. rewrite (slice_split buf (pos + 4) (16 - 4) 4) by lia. rewrite (slice_split buf (pos + 4 + 4) (16 - 4 - 4) 4) by lia.
  change (16 - 4 - 4 - 4)%nat with 4%nat. rewrite <- !Nat.add_assoc. reflexivity.
Qed.
Lemma nib_len : forall pos, (pos + 4 <= 136)%nat -> length (flat_map nib2 (slice buf pos 4)) = 8%nat.
Proof.
  intros pos H. assert (L : length (slice buf pos 4) = 4%nat) by (apply slice_length; lia). destruct (slice buf pos 4) as [|x0 [|x1 [|x2 [|x3 [|? ?]]]]]; try discriminate L. reflexivity.
Qed.
Lemma at_map8 : forall (ts : list Z) rest j, length ts = 8%nat -> (j < 8)%nat -> at_ (map (fun x => sub_epi8 2 x) ts ++ rest) j = sub_epi8 2 (nth j ts 0).
Proof.
  intros ts rest j L J. unfold at_. rewrite app_nth1 by (rewrite map_length; lia). rewrite (nth_indep _ 0 (sub_epi8 2 0)) by (rewrite map_length; lia).
  apply (map_nth (fun x => sub_epi8 2 x)).
Qed.
Lemma eta_vec_ok : forall fuel r ctr pos, (136 <= pos + 16 * fuel)%nat -> eta_inv r ctr pos ->
  exists r' ctr' pos', eta_vec fuel buf r ctr pos = CRet (r', ctr', pos') /\ eta_inv r' ctr' pos'.
Proof.
  induction fuel as [|fuel IH]; intros r ctr pos Hp I.
  - cbn [eta_vec]. destruct (Nat.leb_spec pos 120); [lia|]. rewrite andb_false_r. exists r, ctr, pos. auto.
  - cbn [eta_vec]. destruct (Nat.leb_spec ctr 248) as [Hc|]; cbn [andb]; [|exists r, ctr, pos; auto].
    destruct (Nat.leb_spec pos 120) as [Hle|]; [|exists r, ctr, pos; auto].
    unfold loadu128. assert (E16 : (pos + 16 <=? length buf)%nat = true) by (apply Nat.leb_le; lia). rewrite E16. cbn [cbind]. clear E16. cbv zeta.
    rewrite nibbles_ok by apply slice_bytes, BB. rewrite slice16, !flat_map_app.
    pose proof (nib_len pos ltac:(lia)) as L0. pose proof (nib_len (pos + 4) ltac:(lia)) as L1. pose proof (nib_len (pos + 8) ltac:(lia)) as L2. pose proof (nib_len (pos + 12) ltac:(lia)) as L3.
    assert (R0 : forall p, Forall (fun t => 0 <= t < 16) (flat_map nib2 (slice buf p 4))) by (intro p; apply nibs_range, slice_bytes, BB).
    rewrite good_bmask by (repeat (apply Forall_app; split); apply R0).
    pose proof (eta_quarter) as Q.
    assert (Q0 := Q r ctr pos). assert (Q1 := fun r ctr => Q r ctr (pos + 4)%nat). assert (Q2 := fun r ctr => Q r ctr (pos + 8)%nat). assert (Q3 := fun r ctr => Q r ctr (pos + 12)%nat). clear Q R0.
    replace (pos + 4 + 4)%nat with (pos + 8)%nat in Q1 by lia. replace (pos + 8 + 4)%nat with (pos + 12)%nat in Q2 by lia. replace (pos + 12 + 4)%nat with (pos + 16)%nat in Q3 by lia.
    set (t0 := flat_map nib2 (slice buf pos 4)) in *. set (t1 := flat_map nib2 (slice buf (pos + 4) 4)) in *. set (t2 := flat_map nib2 (slice buf (pos + 8) 4)) in *. set (t3 := flat_map nib2 (slice buf (pos + 12) 4)) in *.
    clearbody t0 t1 t2 t3. rewrite !map_app.
    assert (M : forall t, length (map lt15 t) = length t) by (intro; apply map_length). assert (M' : forall t, length (map (fun x => sub_epi8 2 x) t) = length t) by (intro; apply map_length).
    destruct (mask_split (map lt15 t0) (map lt15 t1 ++ map lt15 t2 ++ map lt15 t3)) as [-> ->]; [rewrite M; exact L0|].
    destruct (mask_split (map lt15 t1) (map lt15 t2 ++ map lt15 t3)) as [-> ->]; [rewrite M; exact L1|].
    destruct (mask_split (map lt15 t2) (map lt15 t3)) as [-> ->]; [rewrite M; exact L2|].
    set (u0 := map (fun x => sub_epi8 2 x) t0) in *. set (u1 := map (fun x => sub_epi8 2 x) t1) in *. set (u2 := map (fun x => sub_epi8 2 x) t2) in *. set (u3 := map (fun x => sub_epi8 2 x) t3) in *.
    assert (K0 : length u0 = 8%nat) by (unfold u0; rewrite M'; exact L0). assert (K1 : length u1 = 8%nat) by (unfold u1; rewrite M'; exact L1).
    assert (K2 : length u2 = 8%nat) by (unfold u2; rewrite M'; exact L2). assert (K3 : length u3 = 8%nat) by (unfold u3; rewrite M'; exact L3).
    assert (F16 : firstn 16 (u0 ++ u1 ++ u2 ++ u3) = u0 ++ u1).
    { rewrite app_assoc, firstn_app, app_length, K0, K1. change (16 - (8 + 8))%nat with 0%nat. rewrite firstn_O, app_nil_r. apply firstn_all2. rewrite app_length. lia. }
    assert (S16 : skipn 16 (u0 ++ u1 ++ u2 ++ u3) = u2 ++ u3).
    { rewrite app_assoc, skipn_app, app_length, K0, K1. change (16 - (8 + 8))%nat with 0%nat. rewrite skipn_all2 by (rewrite app_length; lia). reflexivity. }
    assert (B : forall a b, length a = 8%nat -> bsrli8 (a ++ b) = b ++ repeat 0 8).
    { intros a b L. unfold bsrli8. rewrite skipn_app, L, Nat.sub_diag. rewrite skipn_all2 by lia. reflexivity. }
    rewrite F16, S16, !B by assumption. clear F16 S16 B M M'.
    destruct (Q0 (u0 ++ u1) I Hc) as (r1 & c1 & E1 & I1); [lia|intros j J; apply at_map8; assumption|]. rewrite E1. cbn [cbind]. clear E1 Q0 I.
    destruct (Nat.ltb_spec 248 c1) as [H1|H1]; [eauto 6|].
    destruct (Q1 r1 c1 (u1 ++ repeat 0 8) I1 H1) as (r2 & c2 & E2 & I2); [lia|intros j J; apply at_map8; assumption|]. rewrite E2. cbn [cbind]. clear E2 Q1 I1.
    destruct (Nat.ltb_spec 248 c2) as [H2|H2]; [eauto 6|].
    destruct (Q2 r2 c2 (u2 ++ u3) I2 H2) as (r3 & c3 & E3 & I3); [lia|intros j J; apply at_map8; assumption|]. rewrite E3. cbn [cbind]. clear E3 Q2 I2.
    destruct (Nat.ltb_spec 248 c3) as [H3|H3]; [eauto 6|].
    destruct (Q3 r3 c3 (u3 ++ repeat 0 8) I3 H3) as (r4 & c4 & E4 & I4); [lia|intros j J; apply at_map8; assumption|]. rewrite E4. cbn [cbind]. clear E4 Q3 I3.
    apply IH; [lia|exact I4].
Qed.
Lemma slice_S : forall pos, (pos < length buf)%nat -> (pos < 136)%nat -> slice buf pos (136 - pos) = at_ buf pos :: slice buf (S pos) (136 - S pos).
Proof.
  intros pos H H'. rewrite (slice_split buf pos (136 - pos) 1) by lia. replace (pos + 1)%nat with (S pos) by lia. replace (136 - pos - 1)%nat with (136 - S pos)%nat by lia.
  assert (L : length (slice buf pos 1) = 1%nat) by (apply slice_length; lia). destruct (slice buf pos 1) as [|x [|? ?]] eqn:E; try discriminate L.
  assert (A : at_ (slice buf pos 1) 0 = at_ buf (pos + 0)) by (apply slice_at; lia). rewrite E, Nat.add_0_r in A. cbn [at_ nth] in A. rewrite <- A. reflexivity.
Qed.
Lemma eta_tail_ok : forall fuel r ctr pos, (136 <= pos + fuel)%nat -> eta_inv r ctr pos ->
  exists r', eta_tail fuel buf r ctr pos = CRet (r', length eta_target) /\ length r' = 256%nat /\ firstn (length eta_target) r' = eta_target.
Proof.
  induction fuel as [|fuel IH]; intros r ctr pos Hp (Lr & Hc & Hpos & T).
  - cbn [eta_tail]. assert (pos = 136%nat) by lia. subst pos. change (136 <? 136)%nat with false. rewrite andb_false_r.
    rewrite Nat.sub_diag in T. assert (E : rej_eta (256 - ctr) (slice buf 136 0) = []) by reflexivity.
    rewrite E, app_nil_r in T. assert (E' : length eta_target = ctr) by (rewrite <- T, firstn_length; lia). exists r. rewrite E'. auto.
  - cbn [eta_tail]. destruct (Nat.ltb_spec ctr 256) as [H1|H1]; cbn [andb].
    2:{ assert (ctr = 256%nat) by lia. subst ctr. rewrite Nat.sub_diag, rej_eta_O, app_nil_r in T.
        assert (E' : length eta_target = 256%nat) by (rewrite <- T, firstn_length; lia). exists r. rewrite E'. auto. }
    destruct (Nat.ltb_spec pos 136) as [H2|H2].
    2:{ assert (pos = 136%nat) by lia. subst pos. rewrite Nat.sub_diag in T. assert (E : rej_eta (256 - ctr) (slice buf 136 0) = []) by reflexivity.
        rewrite E, app_nil_r in T. assert (E' : length eta_target = ctr) by (rewrite <- T, firstn_length; lia). exists r. rewrite E'. auto. }
    assert (E : (pos <? length buf)%nat = true) by (apply Nat.ltb_lt; lia). rewrite E. clear E. cbv zeta.
    rewrite slice_S in T by lia. cbn [rej_eta] in T. destruct (Nat.eqb_spec (256 - ctr) 0) as [|_]; [lia|]. cbv zeta in T.
    set (t0 := Z.land (at_ buf pos) 15) in *. set (t1 := Z.shiftr (at_ buf pos) 4) in *. rewrite !eta_of_alt in T.
    change (2 - (t0 - Z.shiftr (205 * t0) 10 * 5)) with (etaval t0). change (2 - (t1 - Z.shiftr (205 * t1) 10 * 5)) with (etaval t1). fold (lt15 t0). fold (lt15 t1).
    clearbody t0 t1. destruct (lt15 t0).
    + destruct (patch_prefix r ctr [etaval t0] 1) as (r1 & E1 & L1 & F1); [cbn; lia|cbn; lia|]. rewrite E1. cbn [cbind]. clear E1. change (firstn 1 [etaval t0]) with [etaval t0] in F1.
      destruct (lt15 t1); cbn [andb].
      * destruct (Nat.ltb_spec (S ctr) 256) as [H3|H3].
        -- destruct (patch_prefix r1 (S ctr) [etaval t1] 1) as (r2 & E2 & L2 & F2); [cbn; lia|cbn; lia|]. rewrite E2. cbn [cbind]. clear E2. change (firstn 1 [etaval t1]) with [etaval t1] in F2.
           apply IH; [lia|]. split; [lia|]. split; [lia|]. split; [lia|]. rewrite <- T. replace (S (S ctr)) with (S ctr + 1)%nat by lia. rewrite F2.
           replace (ctr + 1)%nat with (S ctr) in F1 by lia. rewrite F1. rewrite (firstn_all2 ([etaval t0] ++ [etaval t1])) by (cbn [app length]; lia). cbn [app length]. rewrite <- !app_assoc. cbn [app]. do 3 f_equal. f_equal. lia.
        -- cbn [cbind]. assert (ctr = 255%nat) by lia. subst ctr. apply IH; [lia|]. split; [lia|]. split; [lia|]. split; [lia|]. rewrite <- T.
           change (256 - 256)%nat with 0%nat. change (256 - 255)%nat with 1%nat. change (firstn 1 ([etaval t0] ++ [etaval t1])) with [etaval t0]. cbn [length]. change (1 - 1)%nat with 0%nat. rewrite !rej_eta_O.
           change 256%nat with (255 + 1)%nat. rewrite F1, !app_nil_r. reflexivity.
      * cbn [cbind]. apply IH; [lia|]. split; [lia|]. split; [lia|]. split; [lia|]. rewrite <- T. replace (S ctr) with (ctr + 1)%nat by lia. rewrite F1.
        rewrite (firstn_all2 ([etaval t0] ++ [])) by (cbn [app length]; lia). cbn [app length]. rewrite <- !app_assoc. cbn [app]. do 2 f_equal. f_equal. lia.
    + cbn [cbind app] in *. destruct (lt15 t1); cbn [andb].
      * destruct (Nat.ltb_spec ctr 256) as [_|]; [|lia].
        destruct (patch_prefix r ctr [etaval t1] 1) as (r1 & E1 & L1 & F1); [cbn; lia|cbn; lia|]. rewrite E1. cbn [cbind]. clear E1. change (firstn 1 [etaval t1]) with [etaval t1] in F1.
        apply IH; [lia|]. split; [lia|]. split; [lia|]. split; [lia|]. rewrite <- T. replace (S ctr) with (ctr + 1)%nat by lia. rewrite F1.
        rewrite (firstn_all2 [etaval t1]) by (cbn [app length]; lia). cbn [app length]. rewrite <- !app_assoc. cbn [app]. do 2 f_equal. f_equal. lia.
      * cbn [cbind]. apply IH; [lia|]. split; [lia|]. split; [lia|]. split; [lia|]. rewrite <- T. rewrite firstn_nil. cbn [app length]. rewrite Nat.sub_0_r. reflexivity.
Qed.
(** The vector code accepts what the reference accepts, in its order, and stays inside its arrays. *)
Theorem rej_eta_avx_ok : forall r, length r = 256%nat ->
  exists r', rej_eta_avx r buf = CRet (r', length (rej_eta 256 (firstn 136 buf))) /\ length r' = 256%nat /\
    firstn (length (rej_eta 256 (firstn 136 buf))) r' = rej_eta 256 (firstn 136 buf).
Proof.
  intros r L. unfold rej_eta_avx. change (firstn 136 buf) with (slice buf 0 136). fold eta_target.
  destruct (eta_vec_ok 9 r 0 0) as (r1 & c1 & p1 & E & I); [lia| |].
  { split; [exact L|]. split; [lia|]. split; [lia|]. reflexivity. }
  rewrite E. cbn [cbind]. apply eta_tail_ok; [|exact I]. lia.
Qed.
End Rej.

(** ** [poly_uniform_eta_4x] *)
Local Opaque rej_eta_avx.
Lemma eta_refill_ok : forall pos s b ac acc, lane_ok ac acc ->
  exists ac', eta_refill_c (overwrite b (squeeze s pos 136)) ac = CRet ac' /\ lane_ok ac' (acc ++ rej_eta (256 - length acc) (squeeze s pos 136)).
Proof.
  intros pos s b [a ctr] acc (La & Hc & Hl & Hf). cbn [fst snd] in *. subst ctr. unfold eta_refill_c. cbv zeta. change SHAKE256_RATE with 136%nat.
  rewrite overwrite_start by apply squeeze_length. set (l := rej_eta (256 - length acc) (squeeze s pos 136)).
  assert (Ll : (length l <= 256 - length acc)%nat) by apply rej_eta_le.
  destruct (AvxBytesOk.patch_prefix a (length acc) l (length l)) as (a' & E & L' & F'); [lia|lia|]. rewrite E. cbn [cbind].
  eexists. split; [reflexivity|]. unfold lane_ok. cbn [fst snd]. rewrite app_length. split; [congruence|]. split; [reflexivity|]. split; [lia|].
  rewrite F', Hf, firstn_all. reflexivity.
Qed.
Definition eta_more (pos : nat) (m : bytes) (acc : list Z) : list Z := acc ++ rej_eta (256 - length acc) (squeeze (shake256 fips_xof m) pos 136).
Lemma eta_refills_ok : forall pos ms bufs st accs, Forall2 lane_ok st accs -> length ms = length st -> length bufs = length st ->
  exists st', zipM eta_refill_c (map2 overwrite bufs (map (fun m => squeeze (shake256 fips_xof m) pos 136) ms)) st = CRet st' /\ Forall2 lane_ok st' (map2 (eta_more pos) ms accs).
Proof.
  intros pos ms bufs st accs F. revert ms bufs. induction F as [|ac acc st accs H F IH]; intros [|m ms] [|b bufs] L L'; try discriminate L; try discriminate L'.
  - exists []. split; [reflexivity|constructor].
  - destruct (eta_refill_ok pos (shake256 fips_xof m) b ac acc H) as (ac' & E & K). destruct (IH ms bufs) as (st' & E' & K'); [cbn in L; lia|cbn in L'; lia|].
    cbn [map map2 zipM]. rewrite E. cbn [cbind]. rewrite E'. cbn [cbind]. eexists. split; [reflexivity|]. constructor; assumption.
Qed.
(** The portable runs of the lanes, one after the other. *)
Fixpoint eta_runs (fuel : nat) (ms : list bytes) (accs : list (list Z)) (pos : nat) : crun (list poly) :=
  match ms, accs with
  | m :: ms', acc :: accs' => do a <- eta_loop fuel (shake256 fips_xof m) acc pos ;; do r <- eta_runs fuel ms' accs' pos ;; CRet (a :: r)
  | _, _ => CRet []
  end.
Lemma eta_loop_full : forall fuel s acc pos, length acc = 256%nat -> eta_loop fuel s acc pos = CRet acc.
Proof. intros [|fuel] s acc pos L; cbn [eta_loop]; rewrite L; reflexivity. Qed.
Lemma eta_loop_step : forall fuel m acc pos, (length acc <= 256)%nat ->
  eta_loop (S fuel) (shake256 fips_xof m) acc pos = eta_loop fuel (shake256 fips_xof m) (eta_more pos m acc) (pos + 136).
Proof.
  intros fuel m acc pos La. cbn [eta_loop]. destruct (Nat.ltb_spec (length acc) 256) as [H|H]; [reflexivity|].
  assert (E : length acc = 256%nat) by lia. unfold eta_more. rewrite E, Nat.sub_diag, rej_eta_O, app_nil_r. symmetry. apply eta_loop_full, E.
Qed.
Lemma eta_runs_step : forall fuel ms accs pos, Forall (fun acc => (length acc <= 256)%nat) accs ->
  eta_runs (S fuel) ms accs pos = eta_runs fuel ms (map2 (eta_more pos) ms accs) (pos + 136).
Proof.
  intros fuel ms. induction ms as [|m ms IH]; intros [|acc accs] pos F; try reflexivity. inversion F; subst.
  cbn [eta_runs map2]. rewrite eta_loop_step by assumption. rewrite IH by assumption. reflexivity.
Qed.
Lemma eta_runs_done : forall fuel ms st accs pos, length ms = length st -> Forall2 lane_ok st accs ->
  existsb (fun ac => (snd ac <? 256)%nat) st = false -> eta_runs fuel ms accs pos = CRet (map fst st).
Proof.
  intros fuel ms st accs pos L F. revert ms L. induction F as [|ac acc st accs H F IH]; intros [|m ms] L E; try discriminate L; [reflexivity|].
  cbn [existsb] in E. apply orb_false_iff in E. destruct E as [E1 E2]. apply Nat.ltb_ge in E1.
  destruct H as (La & Hc & Hl & Hf). cbn [eta_runs map]. rewrite eta_loop_full by lia. cbn [cbind]. rewrite IH by (cbn in L; lia || assumption). cbn [cbind].
  rewrite firstn_all2 in Hf by lia. rewrite <- Hf. reflexivity.
Qed.
Lemma eta_runs_starved : forall ms st accs pos, length ms = length st -> Forall2 lane_ok st accs ->
  existsb (fun ac => (snd ac <? 256)%nat) st = true -> eta_runs 0 ms accs pos = CFuel.
Proof.
  intros ms st accs pos L F. revert ms L. induction F as [|ac acc st accs H F IH]; intros [|m ms] L E; try discriminate L; [discriminate E|].
  cbn [existsb] in E. destruct H as (La & Hc & Hl & Hf). cbn [eta_runs eta_loop].
  destruct (Nat.ltb_spec (length acc) 256) as [H|H]; [reflexivity|]. cbn [cbind].
  destruct (Nat.ltb_spec (snd ac) 256); [lia|]. cbn [orb] in E. rewrite IH by (cbn in L; lia || assumption). reflexivity.
Qed.
Lemma eta4_loop_ok : forall yr ms, yr_ok yr -> forall fuel k s bufs st accs, length bufs = 4%nat -> at_block 136 ms k s -> length st = 4%nat -> Forall2 lane_ok st accs ->
  eta4_loop_c fuel yr bufs s st = eta_runs fuel ms accs (k * 136).
Proof.
  intros yr ms Y fuel. induction fuel as [|f IH]; intros k s bufs st accs Lb A Ls F; assert (Lm : length ms = 4%nat) by apply A; cbn [eta4_loop_c].
  - destruct (existsb _ st) eqn:E; symmetry; [apply (eta_runs_starved ms st accs)|apply (eta_runs_done 0 ms st accs)]; (assumption || congruence).
  - destruct (existsb _ st) eqn:E; [|symmetry; apply (eta_runs_done (S f) ms st accs); (assumption || congruence)].
    destruct (squeeze256_at yr ms k 1 s Y A) as (s' & E' & A'). change (1 * 136)%nat with 136%nat in E'. rewrite E'. cbn [cbind]. clear E'. cbv zeta.
    destruct (eta_refills_ok (k * 136) ms bufs st accs F) as (st' & E' & F'); [congruence|congruence|]. rewrite E'. cbn [cbind]. clear E'.
    assert (Fl : Forall (fun acc : list Z => (length acc <= 256)%nat) accs) by (clear - F; induction F as [|? ? ? ? H]; constructor; [apply H|assumption]).
    rewrite eta_runs_step by exact Fl.
    replace (k * 136 + 136)%nat with ((k + 1) * 136)%nat by lia. apply IH; [|exact A'| |exact F'].
    + apply map2_length4; [exact Lb|rewrite map_length; exact Lm].
    + apply AvxSample.Forall2_length in F, F'. rewrite F'. rewrite map2_length. lia.
Qed.
Lemma eta_first : forall e s tail, ctx_ok e -> is_bytes tail ->
  exists ac, rej_eta_avx (raw e 256) (squeeze s 0 136 ++ tail) = CRet ac /\ lane_ok ac (rej_eta 256 (squeeze s 0 136)).
Proof.
  intros e s tail He Bt. destruct (rej_eta_avx_ok (squeeze s 0 136 ++ tail)) with (r := raw e 256) as (r' & E & L & F).
  - rewrite app_length, squeeze_length. lia.
  - unfold is_bytes. apply Forall_app. split; [apply squeeze_bytes|exact Bt].
  - apply raw_length.
  - assert (G : firstn 136 (squeeze s 0 136 ++ tail) = squeeze s 0 136).
    { rewrite firstn_app, squeeze_length, Nat.sub_diag, firstn_O, app_nil_r. apply firstn_all2. rewrite squeeze_length. lia. }
    rewrite G in *. eexists. split; [exact E|]. unfold lane_ok. cbn [fst snd]. split; [exact L|]. split; [reflexivity|]. split; [apply rej_eta_le|exact F].
Qed.
Lemma poly_uniform_eta_run : forall fuel X seed n, poly_uniform_eta fuel X seed n = eta_loop fuel (stream256 X seed n) (rej_eta 256 (squeeze (stream256 X seed n) 0 136)) 136.
Proof.
  intros. unfold poly_uniform_eta. cbv zeta. change ((136 + SHAKE256_RATE - 1) / SHAKE256_RATE * SHAKE256_RATE)%nat with 136%nat. reflexivity.
Qed.
(** Four short polynomials at once: those the portable build samples with the same seed and nonces. *)
Theorem eta_4x_ok : forall e yr fuel seed nonces, ctx_ok e -> yr_ok yr -> is_bytes seed -> (64 <= length seed)%nat ->
  length nonces = 4%nat -> Forall (fun n => 0 <= n < 65536) nonces ->
  eta_4x_c e yr fuel seed nonces = mapM (poly_uniform_eta fuel fips_xof (firstn 64 seed)) nonces.
Proof.
  intros e yr fuel seed nonces He Y B Ls Ln Fn. unfold eta_4x_c. cbv zeta.
  assert (LS : length (firstn 64 seed) = 64%nat) by (rewrite firstn_length; lia). set (sd := firstn 64 seed) in *.
  assert (Bs : is_bytes sd) by (apply is_bytes_firstn, B). clearbody sd. clear B Ls seed.
  destruct (absorb_at yr 136 e sd 136 nonces Y rate136 He Bs Ln) as (s & E & A); [rewrite LS; unfold roundup; cbn; lia|].
  rewrite LS in E. change (64 + 2)%nat with 66%nat in E. unfold shake256x4_absorb_once, R_SHAKE256. rewrite E. cbn [cbind]. clear E.
  set (ms := map (fun n => sd ++ nonce_bytes (u16 n)) nonces) in *.
  destruct (squeeze256_at yr ms 0 1 s Y A) as (s' & E & A'). rewrite E. cbn [cbind]. clear E A.
  change (0 * 136)%nat with 0%nat. change (1 * 136)%nat with 136%nat. change (0 + 1)%nat with 1%nat in A'.
  set (bufs := map2 overwrite _ _).
  assert (G : forall l, exists st, mapM (rej_eta_avx (raw e 256))
      (map2 overwrite (map (seed_buf e sd 136) l) (map (fun m => squeeze (shake256 fips_xof m) 0 136) (map (fun n => sd ++ nonce_bytes (u16 n)) l))) = CRet st /\
    Forall2 lane_ok st (map (fun m => rej_eta 256 (squeeze (shake256 fips_xof m) 0 136)) (map (fun n => sd ++ nonce_bytes (u16 n)) l))).
  { induction l as [|n l IH]; [exists []; split; [reflexivity|constructor]|]. destruct IH as (st & E & F). cbn [map map2 mapM].
    destruct (eta_first e (shake256 fips_xof (sd ++ nonce_bytes (u16 n))) (skipn 136 (seed_buf e sd 136 n)) He) as (ac & Ea & Fa).
    - apply is_bytes_skipn, seed_buf_bytes; assumption.
    - unfold overwrite at 1. rewrite squeeze_length, Ea. cbn [cbind]. rewrite E. cbn [cbind]. eexists. split; [reflexivity|]. constructor; assumption. }
  destruct (G nonces) as (st & E & F). fold ms in E, F. fold bufs in E. rewrite E. cbn [cbind]. clear E G.
  rewrite (eta4_loop_ok yr ms Y fuel 1 s' bufs st (map (fun m => rej_eta 256 (squeeze (shake256 fips_xof m) 0 136)) ms)); [|unfold bufs; apply map2_length4; unfold ms; rewrite !map_length; exact Ln|exact A'| |exact F].
  2:{ apply AvxSample.Forall2_length in F. rewrite F. unfold ms. rewrite !map_length. exact Ln. }
  change (1 * 136)%nat with 136%nat. clear F st bufs A' s' s Ln.
  subst ms. induction nonces as [|n nonces IH]; [reflexivity|]. apply Forall_cons_iff in Fn. destruct Fn as [Hn Fn]. cbn [map eta_runs mapM].
  rewrite poly_uniform_eta_run. unfold stream256. unfold u16 at 1 2. rewrite (Z.mod_small n) by exact Hn. rewrite IH by exact Fn. reflexivity.
Qed.
