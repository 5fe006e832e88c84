(** * AvxShake: signing and verification of the AVX2 build on top of f1600x4.S, fips202x4.c and
    fips202.c, nothing replaced.

    AvxSign models hashing as reading streams.  Here the functions that hash are modelled again with
    the calls the C code makes ([shake128x4_absorb_once], ..) and are proved equal to the ones used
    everywhere else when the streams are the SHAKE streams of FIPS 202.  [yr] is what the vector
    registers hold when the four-way permutation is entered. *)
From Coq Require Import ZArith List Lia Bool.
From Verif Require Import Keccak KeccakSpec KeccakPerm KeccakSponge KeccakProps PropsKeccak KeccakX4 KeccakX4Ok FipsX4Ok.
From Verif Require Import Base Bits SaberPoly SaberRing DilArith DilNtt DilPoly DilPack DilOps DilSample DilSampleSpec DilSign DilCorrect DilProps DilShake DilShake2.
From Verif Require Import AvxMachine AvxNtt AvxPoint AvxPoly AvxBytes AvxBytesOk AvxCodecOk AvxSign AvxSample.
Import ListNotations.
Open Scope Z_scope.
Local Opaque StatePermute keccak_f f1600x4 keccakx4_squeezeblocks keccakx4_absorb_once.

(** ** The four-way samplers *)
(** poly.c 402-421, 600-624: a buffer of [size] uninitialised bytes after the seed and the nonce are stored. *)
Definition seed_buf (e : ctx) (seed : bytes) (size : nat) (n : Z) : bytes :=
  seed ++ nonce_bytes (u16 n) ++ map (c_junk e) (seq (length seed + 2) (size - length seed - 2)).
(** The blocks written over the start of a buffer. *)
Definition overwrite (b o : bytes) : bytes := o ++ skipn (length o) b.
(** poly.c 431-438. *)
Definition refill_c (o : bytes) (ac : poly * nat) : crun (poly * nat) :=
  let '(a, ctr) := ac in
  let l := rej_uniform (256 - ctr) (firstn SHAKE128_RATE o) in
  do a' <- patch a ctr l ;; CRet (a', (ctr + length l)%nat).
Fixpoint uniform4_loop_c (fuel : nat) (yr : list KeccakX4.vec) (bufs : list bytes) (s : list KeccakX4.vec) (st : list (poly * nat)) : crun (list poly) :=
  if existsb (fun ac => (snd ac <? 256)%nat) st then
    match fuel with
    | O => CFuel
    | S f => do (o, s) <- shake128x4_squeezeblocks yr 1 s ;;
             let bufs := map2 overwrite bufs o in
             do st' <- zipM refill_c bufs st ;; uniform4_loop_c f yr bufs s st'
    end
  else CRet (map fst st).
(** poly.c 394-439: [poly_uniform_4x]. *)
Definition poly_uniform_4x_c (e : ctx) (yr : list KeccakX4.vec) (fuel : nat) (seed : bytes) (nonces : list Z) : crun (list poly) :=
  let bufs := map (seed_buf e (firstn 32 seed) 848) nonces in
  do s <- shake128x4_absorb_once yr bufs 34 ;;
  do (o, s) <- shake128x4_squeezeblocks yr 5 s ;;
  let bufs := map2 overwrite bufs o in
  do st <- mapM (rej_uniform_avx (raw e 256)) bufs ;;
  uniform4_loop_c fuel yr bufs s st.
(** poly.c 592-632: [poly_uniform_gamma1_4x]. *)
Definition gamma1_4x_c (e : ctx) (yr : list KeccakX4.vec) (seed : bytes) (nonces : list Z) : crun polyvec :=
  let bufs := map (seed_buf e (firstn 64 seed) 694) nonces in
  do s <- shake256x4_absorb_once yr bufs 66 ;;
  do (o, s) <- shake256x4_squeezeblocks yr 5 s ;;
  let bufs := map2 overwrite bufs o in
  mapM (fun b => polyz_unpack_avx b 0) bufs.

(** ** Signing and verification: AvxSign.v with these samplers and the incremental SHAKE of fips202.c *)
Definition matrix_expand_row_c (e : ctx) (yr : list KeccakX4.vec) (fuel : nat) (rho : bytes) (i : nat) : crun polyvec :=
  do row <- poly_uniform_4x_c e yr fuel rho (map (fun j => 256 * Z.of_nat i + Z.of_nat j) (seq 0 4)) ;;
  CRet (map (nttunpack_avx (c_regs e)) row).
Definition matrix_expand_avx_c (e : ctx) (yr : list KeccakX4.vec) (fuel : nat) (rho : bytes) : crun (list polyvec) :=
  mapM (matrix_expand_row_c e yr fuel rho) (seq 0 4).
(** sign.c 160-237. *)
Definition sign_attempt_avx_c (e : ctx) (yr : list KeccakX4.vec) (fuel : nat) (mat : list polyvec) (s1 s2 t0 : polyvec)
    (mu rhoprime : bytes) (nonce : Z) (sig : bytes) : crun (bytes * bool) :=
  let R := c_regs e in
  do z <- gamma1_4x_c e yr rhoprime [nonce; nonce + 1; nonce + 2; nonce + 3] ;;
  let y := map (ntt_avx R) z in
  let w1 := map (fun row => pointwise_acc_avx R row y (raw e 256)) mat in
  let w1 := map (invntt_avx R) w1 in
  let w1 := map caddq_avx w1 in
  let d := map decompose_avx w1 in
  let w1 := map fst d in
  let w0 := map snd d in
  do sig <- pack_w1_avx sig w1 ;;
  do sig <- patch sig 0 (hash2_c 32 mu (firstn 768 sig)) ;;
  do c <- poly_challenge_c fuel sig ;;
  let c := ntt_avx R c in
  match z_rows e c s1 z with
  | None => CRet (sig, false)
  | Some z =>
      do sig <- patch sig 2336 (repeat 0 OMEGA) ;;
      do (sig, ok) <- h_rows e c (combine (combine (combine s2 t0) w0) w1) 0 sig 0 ;;
      if (ok : bool) then do sig <- pack_z_avx sig z ;; CRet (sig, true) else CRet (sig, false)
  end.
Fixpoint sign_loop_avx_c (att : nat) (e : ctx) (yr : list KeccakX4.vec) (fuel : nat) (mat : list polyvec) (s1 s2 t0 : polyvec)
    (mu rhoprime : bytes) (nonce : Z) (sig : bytes) : crun bytes :=
  match att with
  | O => CFuel
  | S a =>
      do (sig, ok) <- sign_attempt_avx_c e yr fuel mat s1 s2 t0 mu rhoprime nonce sig ;;
      if (ok : bool) then CRet sig
      else sign_loop_avx_c a e yr fuel mat s1 s2 t0 mu rhoprime ((nonce + 4) mod 18446744073709551616) sig
  end.
(** sign.c 119-238. *)
Definition sign_signature_avx_c (att : nat) (e : ctx) (yr : list KeccakX4.vec) (fuel : nat) (sig m sk : bytes) : crun bytes :=
  let '(rho, tr, key, t0, s1, s2) := unpack_sk sk in
  let R := c_regs e in
  let mu := hash2_c 64 tr m in
  let rhoprime := c_shake256 64 (key ++ repeat 0 32 ++ mu) in
  do mat <- matrix_expand_avx_c e yr fuel rho ;;
  sign_loop_avx_c att e yr fuel mat (map (ntt_avx R) s1) (map (ntt_avx R) s2) (map (ntt_avx R) t0) mu rhoprime 0 sig.
(** sign.c 315-349. *)
Fixpoint verify_rows_c (e : ctx) (yr : list KeccakX4.vec) (fuel : nat) (pk hint : bytes) (c : poly) (z : polyvec) (is : list nat) (buf : bytes) (pos : nat)
    : crun (option (bytes * nat)) :=
  match is with
  | [] => CRet (Some (buf, pos))
  | i :: rest =>
      let R := c_regs e in
      do row <- matrix_expand_row_c e yr fuel pk i ;;
      let w1 := pointwise_acc_avx R row z (raw e 256) in
      let h := polyt1_unpack (slice pk (32 + i * 320) 320) in
      let h := ntt_avx R (shiftl_avx h) in
      let h := pointwise_alias_avx R c h in
      let w1 := reduce_avx (sub_avx w1 h) in
      let w1 := invntt_avx R w1 in
      let t := Z.to_nat (at_ hint (OMEGA + i)) in
      if (t <? pos)%nat || (OMEGA <? t)%nat then CRet None else
      match hint_row_avx hint pos t with
      | None => CRet None
      | Some h =>
          let w1 := use_hint_avx (caddq_avx w1) h in
          do buf <- polyw1_pack_avx buf (192 * i) w1 ;;
          verify_rows_c e yr fuel pk hint c z rest buf t
      end
  end.
(** sign.c 280-372. *)
Definition verify_signature_avx_c (e : ctx) (yr : list KeccakX4.vec) (fuel : nat) (sig m pk : bytes) : crun bool :=
  if negb (length sig =? 2420)%nat then CRet false else
  let R := c_regs e in
  let hint := skipn 2336 sig in
  let mu := hash2_c 64 (c_shake256 64 (firstn 1312 pk)) m in
  do c <- poly_challenge_c fuel sig ;;
  let c := ntt_avx R c in
  do z <- mapM (fun i => do a <- polyz_unpack_avx sig (32 + 576 * i) ;; CRet (ntt_avx R a)) (seq 0 4) ;;
  do r <- verify_rows_c e yr fuel pk hint c z (seq 0 4) (raw e 782) 0 ;;
  match r with
  | None => CRet false
  | Some (buf, pos) =>
      if forallb (fun j => at_ hint j =? 0) (seq pos (OMEGA - pos)) then
        do buf <- patch buf 0 (hash2_c 32 mu (firstn 768 buf)) ;;
        CRet (beq (firstn 32 buf) (firstn 32 sig))
      else CRet false
  end.

(** ** The streams *)
Definition yr_ok (yr : list KeccakX4.vec) : Prop := FipsX4Ok.regs_ok yr.
Lemma nonce_two : forall n, length (nonce_bytes n) = 2%nat. Proof. reflexivity. Qed.
Lemma nonce_is_bytes : forall n, is_bytes (nonce_bytes n).
Proof. intro n. unfold nonce_bytes. repeat (apply Forall_cons; [unfold is_byte, u8; apply Z.mod_pos_bound; lia|]). apply Forall_nil. Qed.
Lemma seed_buf_length : forall e seed size n, (length seed + 2 <= size)%nat -> length (seed_buf e seed size n) = size.
Proof. intros. unfold seed_buf. rewrite !app_length, nonce_two, map_length, seq_length. lia. Qed.
Lemma seed_buf_bytes : forall e seed size n, ctx_ok e -> is_bytes seed -> is_bytes (seed_buf e seed size n).
Proof.
  intros e seed size n [_ J] B. unfold seed_buf, is_bytes. apply Forall_app. split; [exact B|]. apply Forall_app. split; [apply nonce_is_bytes|].
  apply Forall_map, Forall_forall. intros i _. apply J.
Qed.
Lemma seed_buf_start : forall e seed size n, firstn (length seed + 2) (seed_buf e seed size n) = seed ++ nonce_bytes (u16 n).
Proof.
  intros. unfold seed_buf. rewrite app_assoc, firstn_app, app_length, nonce_two, Nat.sub_diag, firstn_O, app_nil_r.
  apply firstn_all2. rewrite app_length, nonce_two. lia.
Qed.
(** A run of the four-way functions on four nonces: what each lane has absorbed and where it is. *)
Definition at_block (r : nat) (ms : list bytes) (k : nat) (s : list KeccakX4.vec) : Prop :=
  okst s /\ length ms = 4%nat /\ Forall is_bytes ms /\ forall j, (j < 4)%nat -> lane_of s j = Nat.iter k StatePermute (padstate r 31 (nth j ms [])).
Lemma absorb_at : forall yr r e seed size nonces, yr_ok yr -> rate r -> ctx_ok e -> is_bytes seed -> length nonces = 4%nat ->
  (roundup (length seed + 2) <= size)%nat ->
  exists s, keccakx4_absorb_once yr r (map (seed_buf e seed size) nonces) (length seed + 2) 31 = CRet s /\
    at_block r (map (fun n => seed ++ nonce_bytes (u16 n)) nonces) 0 s.
Proof.
  intros yr r e seed size nonces Y R He B L Sz. set (bufs := map (seed_buf e seed size) nonces).
  pose proof (roundup_ok (length seed + 2)) as RU.
  assert (LB : length bufs = 4%nat) by (unfold bufs; rewrite map_length; exact L).
  assert (Nb : forall j, (j < 4)%nat -> exists n, buf bufs j = seed_buf e seed size n /\ nth j (map (fun n => seed ++ nonce_bytes (u16 n)) nonces) [] = seed ++ nonce_bytes (u16 n)).
  { intros j J. exists (nth j nonces 0). unfold buf, bufs. split.
    - rewrite (nth_indep _ [] (seed_buf e seed size 0)) by (rewrite map_length, L; exact J). apply map_nth.
    - rewrite (nth_indep _ [] (seed ++ nonce_bytes (u16 0))) by (rewrite map_length, L; exact J). rewrite (map_nth (fun n => seed ++ nonce_bytes (u16 n))). reflexivity. }
  destruct (absorb_once_ok yr r bufs (length seed + 2) 31 Y R) as (s & E & O & H).
  - split; [exact LB|]. unfold bufs. apply Forall_map, Forall_forall. intros n _. apply seed_buf_bytes; assumption.
  - lia.
  - intros j J. destruct (Nb j J) as (n & -> & _). rewrite seed_buf_length by lia. exact Sz.
  - exists s. split; [exact E|]. split; [exact O|]. split; [rewrite map_length; exact L|]. split.
    + apply Forall_map, Forall_forall. intros n _. apply Forall_app. split; [exact B|apply nonce_is_bytes].
    + intros j J. rewrite (H j J). destruct (Nb j J) as (n & -> & ->). rewrite seed_buf_start. reflexivity.
Qed.
Lemma squeeze_at : forall yr r ms k n s, yr_ok yr -> rate r -> at_block r ms k s ->
  exists s', keccakx4_squeezeblocks yr n r s = CRet (map (fun m => map (obyte r (padstate r 31 m)) (seq (k * r) (n * r))) ms, s') /\ at_block r ms (k + n) s'.
Proof.
  intros yr r ms k n s Y R (O & L & F & H). destruct (squeezeblocks4_ok yr r Y R n s O) as (o & s' & E & O' & Lo & Ho).
  assert (RB := rate_bounds r R).
  assert (G : forall j, (j < 4)%nat -> nth j o [] = map (obyte r (padstate r 31 (nth j ms []))) (seq (k * r) (n * r)) /\ lane_of s' j = Nat.iter (k + n) StatePermute (padstate r 31 (nth j ms []))).
  { intros j J. assert (Hj := Ho j J). rewrite (H j J) in Hj. rewrite squeezeblocks_eq in Hj.
    - injection Hj as A1 A2. split; assumption.
    - exact R.
    - apply padstate_wf; [lia|]. rewrite Forall_forall in F. apply F, nth_In. lia. }
  exists s'. split.
  - rewrite E. do 2 f_equal. apply (list4_ext o (fun m => map (obyte r (padstate r 31 m)) (seq (k * r) (n * r))) ms Lo L). intros j J. apply (G j J).
  - split; [exact O'|]. split; [exact L|]. split; [exact F|]. intros j J. apply (G j J).
Qed.
Lemma squeeze128_at : forall yr ms k n s, yr_ok yr -> at_block 168 ms k s ->
  exists s', shake128x4_squeezeblocks yr n s = CRet (map (fun m => squeeze (shake128 fips_xof m) (k * 168) (n * 168)) ms, s') /\ at_block 168 ms (k + n) s'.
Proof.
  intros yr ms k n s Y A. destruct (squeeze_at yr 168 ms k n s Y rate168 A) as (s' & E & A'). exists s'. split; [|exact A'].
  unfold shake128x4_squeezeblocks, R_SHAKE128. rewrite E. do 2 f_equal. destruct A as (_ & _ & F & _). apply map_ext_Forall. eapply Forall_impl; [|exact F].
  intros m B. symmetry. apply squeeze128_eq, B.
Qed.
Lemma squeeze256_at : forall yr ms k n s, yr_ok yr -> at_block 136 ms k s ->
  exists s', shake256x4_squeezeblocks yr n s = CRet (map (fun m => squeeze (shake256 fips_xof m) (k * 136) (n * 136)) ms, s') /\ at_block 136 ms (k + n) s'.
Proof.
  intros yr ms k n s Y A. destruct (squeeze_at yr 136 ms k n s Y rate136 A) as (s' & E & A'). exists s'. split; [|exact A'].
  unfold shake256x4_squeezeblocks, R_SHAKE256. rewrite E. do 2 f_equal. destruct A as (_ & _ & F & _). apply map_ext_Forall. eapply Forall_impl; [|exact F].
  intros m B. symmetry. apply squeeze256_eq, B.
Qed.

(** ** The samplers *)
Lemma overwrite_start : forall b o n, length o = n -> firstn n (overwrite b o) = o.
Proof. intros b o n <-. unfold overwrite. rewrite firstn_app, Nat.sub_diag, firstn_O, app_nil_r. apply firstn_all2. lia. Qed.
Lemma refill_c_eq : forall pos s b ac, refill_c (overwrite b (squeeze s pos 168)) ac = refill pos s ac.
Proof.
  intros pos s b [a ctr]. unfold refill_c, refill. change SHAKE128_RATE with 168%nat. rewrite overwrite_start by apply squeeze_length. reflexivity.
Qed.
Lemma zip_refill : forall pos ms bufs st, length bufs = length ms ->
  zipM refill_c (map2 overwrite bufs (map (fun m => squeeze (shake128 fips_xof m) pos 168) ms)) st = zipM (refill pos) (map (shake128 fips_xof) ms) st.
Proof.
  intros pos ms. induction ms as [|m ms IH]; intros [|b bufs] st L; try discriminate L; [reflexivity|]. cbn [map map2]. destruct st as [|ac st]; [reflexivity|].
  cbn [zipM]. rewrite refill_c_eq. rewrite IH by (cbn in L; lia). reflexivity.
Qed.
Lemma loop_c_eq : forall yr ms, yr_ok yr -> forall fuel k s bufs st, length bufs = 4%nat -> at_block 168 ms k s ->
  uniform4_loop_c fuel yr bufs s st = uniform4_loop fuel (map (shake128 fips_xof) ms) st (k * 168).
Proof.
  intros yr ms Y fuel. induction fuel as [|f IH]; intros k s bufs st L A; cbn [uniform4_loop_c uniform4_loop]; [reflexivity|].
  destruct (existsb (fun ac : poly * nat => (snd ac <? 256)%nat) st); [|reflexivity].
  destruct (squeeze128_at yr ms k 1 s Y A) as (s' & E & A'). change (1 * 168)%nat with 168%nat in E. rewrite E. cbn [cbind]. clear E. cbv zeta.
  assert (Lm : length ms = 4%nat) by apply A.
  rewrite zip_refill by congruence. apply cbind_ext; [reflexivity|]. intro st'. change SHAKE128_RATE with 168%nat.
  replace (k * 168 + 168)%nat with ((k + 1) * 168)%nat by lia. apply IH; [|exact A']. apply map2_length4; [exact L|rewrite map_length; exact Lm].
Qed.
Lemma first_ok : forall e s tail, ctx_ok e -> length tail = 8%nat -> is_bytes tail ->
  exists ac, rej_uniform_avx (raw e 256) (squeeze s 0 840 ++ tail) = CRet ac /\ lane_ok ac (rej_uniform 256 (squeeze s 0 840)).
Proof.
  intros e s tail He Lt Bt. destruct (rej_uniform_avx_ok (squeeze s 0 840 ++ tail)) with (r := raw e 256) as (r' & E & L & F).
  - rewrite app_length, squeeze_length, Lt. lia.
  - unfold is_bytes. apply Forall_app. split; [apply squeeze_bytes|exact Bt].
  - apply raw_length.
  - assert (G : firstn 840 (squeeze s 0 840 ++ tail) = squeeze s 0 840).
    { rewrite firstn_app, squeeze_length, Nat.sub_diag, firstn_O, app_nil_r. apply firstn_all2. rewrite squeeze_length. lia. }
    rewrite G in *. eexists. split; [exact E|]. unfold lane_ok. cbn [fst snd]. split; [exact L|]. split; [reflexivity|]. split; [apply rej_uniform_le|exact F].
Qed.
Theorem poly_uniform_4x_c_ok : forall e yr fuel seed nonces, ctx_ok e -> yr_ok yr -> is_bytes seed -> (32 <= length seed)%nat ->
  length nonces = 4%nat -> Forall (fun n => 0 <= n < 65536) nonces ->
  poly_uniform_4x_c e yr fuel seed nonces = mapM (poly_uniform fuel fips_xof (firstn 32 seed)) nonces.
Proof.
  intros e yr fuel seed nonces He Y B Ls Ln Fn. unfold poly_uniform_4x_c. cbv zeta.
  assert (LS : length (firstn 32 seed) = 32%nat) by (rewrite firstn_length; lia). set (sd := firstn 32 seed) in *.
  assert (Bs : is_bytes sd) by (apply is_bytes_firstn, B). clearbody sd. clear B Ls seed.
  destruct (absorb_at yr 168 e sd 848 nonces Y rate168 He Bs Ln) as (s & E & A); [rewrite LS; unfold roundup; cbn; lia|].
  rewrite LS in E. change (32 + 2)%nat with 34%nat in E. unfold shake128x4_absorb_once, R_SHAKE128. rewrite E. cbn [cbind]. clear E.
  set (ms := map (fun n => sd ++ nonce_bytes (u16 n)) nonces) in *.
  destruct (squeeze128_at yr ms 0 5 s Y A) as (s' & E & A'). rewrite E. cbn [cbind]. clear E A.
  change (0 * 168)%nat with 0%nat. change (5 * 168)%nat with 840%nat. change (0 + 5)%nat with 5%nat in A'.
  set (bufs := map2 overwrite _ _).
  assert (G : forall l, exists st, mapM (rej_uniform_avx (raw e 256))
      (map2 overwrite (map (seed_buf e sd 848) l) (map (fun m => squeeze (shake128 fips_xof m) 0 840) (map (fun n => sd ++ nonce_bytes (u16 n)) l))) = CRet st /\
    Forall2 lane_ok st (map (fun m => rej_uniform 256 (squeeze (shake128 fips_xof m) 0 840)) (map (fun n => sd ++ nonce_bytes (u16 n)) l))).
  { induction l as [|n l IH]; [exists []; split; [reflexivity|constructor]|]. destruct IH as (st & E & F). cbn [map map2 mapM].
    destruct (first_ok e (shake128 fips_xof (sd ++ nonce_bytes (u16 n))) (skipn 840 (seed_buf e sd 848 n)) He) as (ac & Ea & Fa).
    - rewrite skipn_length, seed_buf_length by lia. reflexivity.
    - apply is_bytes_skipn, seed_buf_bytes; assumption.
    - unfold overwrite at 1. rewrite squeeze_length, Ea. cbn [cbind]. rewrite E. cbn [cbind]. eexists. split; [reflexivity|]. constructor; assumption. }
  destruct (G nonces) as (st & E & F). fold ms in E, F. fold bufs in E. rewrite E. cbn [cbind]. clear E G.
  rewrite (loop_c_eq yr ms Y fuel 5 s' bufs st); [|unfold bufs; apply map2_length4; unfold ms; rewrite !map_length; exact Ln|exact A'].
  change (5 * 168)%nat with 840%nat.
  rewrite (uniform4_loop_ok fuel _ st (map (fun m => rej_uniform 256 (squeeze (shake128 fips_xof m) 0 840)) ms) 840).
  2:{ apply AvxSample.Forall2_length in F. rewrite F, !map_length. reflexivity. } 2: exact F. clear F st bufs A' s' s Ln.
  subst ms. induction nonces as [|n nonces IH]; [reflexivity|]. apply Forall_cons_iff in Fn. destruct Fn as [Hn Fn]. cbn [map lanes_run mapM].
  rewrite poly_uniform_run. unfold stream128. unfold u16 at 1 2. rewrite (Z.mod_small n) by exact Hn. rewrite IH by exact Fn. reflexivity.
Qed.
Theorem gamma1_4x_c_ok : forall e yr seed nonces, ctx_ok e -> yr_ok yr -> is_bytes seed -> (64 <= length seed)%nat -> length nonces = 4%nat ->
  gamma1_4x_c e yr seed nonces = CRet (map (fun n => poly_uniform_gamma1 fips_xof (firstn 64 seed) (u16 n)) nonces).
Proof.
  intros e yr seed nonces He Y B Ls Ln. unfold gamma1_4x_c. cbv zeta.
  assert (LS : length (firstn 64 seed) = 64%nat) by (rewrite firstn_length; lia). set (sd := firstn 64 seed) in *.
  assert (Bs : is_bytes sd) by (apply is_bytes_firstn, B). clearbody sd. clear B Ls seed.
  destruct (absorb_at yr 136 e sd 694 nonces Y rate136 He Bs Ln) as (s & E & A); [rewrite LS; unfold roundup; cbn; lia|].
  rewrite LS in E. change (64 + 2)%nat with 66%nat in E. unfold shake256x4_absorb_once, R_SHAKE256. rewrite E. cbn [cbind]. clear E.
  destruct (squeeze256_at yr _ 0 5 s Y A) as (s' & E & A'). rewrite E. cbn [cbind]. clear E A A'.
  change (0 * 136)%nat with 0%nat. change (5 * 136)%nat with 680%nat. clear Ln s s'.
  induction nonces as [|n l IH]; [reflexivity|]. cbn [map map2 mapM].
  rewrite polyz_unpack_avx_ok.
  - rewrite IH. cbn [cbind]. rewrite firstn_slice0.
    assert (G : firstn 576 (overwrite (seed_buf e sd 694 n) (squeeze (shake256 fips_xof (sd ++ nonce_bytes (u16 n))) 0 680)) = firstn 576 (squeeze (stream256 fips_xof sd (u16 n)) 0 680)).
    { unfold overwrite. rewrite firstn_app, squeeze_length. change (576 - 680)%nat with 0%nat. rewrite firstn_O, app_nil_r. reflexivity. }
    rewrite G. reflexivity.
  - unfold overwrite. rewrite app_length, skipn_length, squeeze_length, seed_buf_length by lia. lia.
  - unfold overwrite. apply Forall_app. split; [apply squeeze_bytes|apply is_bytes_skipn, seed_buf_bytes; assumption].
Qed.
