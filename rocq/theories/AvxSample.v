(** * AvxSample: the four-way samplers of the AVX2 build draw what the CLEAN build draws. *)
From Coq Require Import ZArith List Lia Bool.
From Verif Require Import Base Bits SaberPoly SaberRing DilArith DilNtt DilNttProof DilPoly DilPack DilCodec2 DilHint DilOps DilSample DilSign
  AvxMachine AvxSym AvxSymOk AvxNtt AvxPoint AvxPoly AvxBytes AvxBytesOk AvxCodecOk AvxSign.
Import ListNotations.
Open Scope Z_scope.

Definition ctx_ok (e : ctx) : Prop := regs_ok (c_regs e) /\ forall i, is_byte (c_junk e i).
Lemma raw_length : forall e n, length (raw e n) = n. Proof. intros. unfold raw. rewrite map_length, seq_length. reflexivity. Qed.
Lemma raw_bytes : forall e n, ctx_ok e -> is_bytes (raw e n).
Proof. intros e n [_ H]. unfold raw, is_bytes. apply Forall_map, Forall_forall. intros i _. apply H. Qed.

(** ** [poly_uniform_4x] *)
Lemma rej_uniform_O : forall b, rej_uniform 0 b = []. Proof. intros [|? ?]; reflexivity. Qed.
Lemma rej_uniform_le : forall b len, (length (rej_uniform len b) <= len)%nat.
Proof.
  intro b. induction b as [b IH] using (induction_ltof1 _ (@length Z)). unfold ltof in IH. intros [|len]; [rewrite rej_uniform_O; cbn; lia|].
  destruct b as [|b0 [|b1 [|b2 b]]]; cbn [rej_uniform length]; try lia.
  destruct (_ <? Q); cbn [length].
  - specialize (IH b ltac:(cbn; lia) len). lia.
  - exact (IH b ltac:(cbn; lia) (S len)).
Qed.
Lemma uniform_step : forall fuel s acc buf pos, (length acc <= 256)%nat -> (length buf mod 3 = 0)%nat ->
  uniform_loop (S fuel) s acc buf pos =
  uniform_loop fuel s (acc ++ rej_uniform (256 - length acc) (squeeze s pos SHAKE128_RATE)) (squeeze s pos SHAKE128_RATE) (pos + SHAKE128_RATE).
Proof.
  intros fuel s acc buf pos La Lb. cbn [uniform_loop]. destruct (Nat.ltb_spec (length acc) 256) as [H|H].
  - cbv zeta. rewrite Lb, Nat.sub_0_r, skipn_all. reflexivity.
  - assert (E : length acc = 256%nat) by lia. rewrite E, Nat.sub_diag, rej_uniform_O, app_nil_r.
    destruct fuel; cbn [uniform_loop]; rewrite E; reflexivity.
Qed.
Lemma Forall2_length : forall {A B} (P : A -> B -> Prop) l m, Forall2 P l m -> length l = length m.
Proof. intros A B P l m F. induction F; cbn; [reflexivity|]. f_equal. assumption. Qed.
(** A lane: the array, the counter, the coefficients of the CLEAN run. *)
Definition lane_ok (ac : poly * nat) (acc : list Z) : Prop :=
  length (fst ac) = 256%nat /\ snd ac = length acc /\ (length acc <= 256)%nat /\ firstn (length acc) (fst ac) = acc.
Lemma refill_ok : forall pos s ac acc, lane_ok ac acc ->
  exists ac', refill pos s ac = CRet ac' /\ lane_ok ac' (acc ++ rej_uniform (256 - length acc) (squeeze s pos SHAKE128_RATE)).
Proof.
  intros pos s [a ctr] acc (La & Hc & Hl & Hf). cbn [fst snd] in *. subst ctr. unfold refill. cbv zeta.
  set (l := rej_uniform (256 - length acc) (squeeze s pos SHAKE128_RATE)).
  assert (Ll : (length l <= 256 - length acc)%nat) by apply rej_uniform_le.
  destruct (patch_prefix a (length acc) l (length l)) as (a' & E & L' & F'); [lia|lia|]. rewrite E. cbn [cbind].
  eexists. split; [reflexivity|]. unfold lane_ok. cbn [fst snd]. rewrite app_length. split; [congruence|]. split; [reflexivity|]. split; [lia|].
  rewrite F', Hf, firstn_all. reflexivity.
Qed.
Lemma refills_ok : forall pos ss st accs, Forall2 lane_ok st accs -> length ss = length st ->
  exists st', zipM (refill pos) ss st = CRet st' /\
    Forall2 lane_ok st' (map2 (fun s acc => acc ++ rej_uniform (256 - length acc) (squeeze s pos SHAKE128_RATE)) ss accs).
Proof.
  intros pos ss st accs F. revert ss. induction F as [|ac acc st accs H F IH]; intros [|s ss] L; try discriminate L.
  - exists []. split; [reflexivity|constructor].
  - destruct (refill_ok pos s ac acc H) as (ac' & E & K). destruct (IH ss) as (st' & E' & K'); [cbn in L; lia|].
    cbn [zipM]. rewrite E. cbn [cbind]. rewrite E'. cbn [cbind]. eexists. split; [reflexivity|]. cbn [map2]. constructor; assumption.
Qed.
(** The CLEAN runs of the lanes, one after the other. *)
Fixpoint lanes_run (fuel : nat) (ss : list rng) (accs : list (list Z)) (pos : nat) : crun (list poly) :=
  match ss, accs with
  | s :: ss', acc :: accs' => do a <- uniform_loop fuel s acc [] pos ;; do r <- lanes_run fuel ss' accs' pos ;; CRet (a :: r)
  | _, _ => CRet []
  end.
Lemma uniform_loop_buf : forall fuel s acc buf buf' pos, (length buf mod 3 = 0)%nat -> (length buf' mod 3 = 0)%nat ->
  uniform_loop fuel s acc buf pos = uniform_loop fuel s acc buf' pos.
Proof.
  intros fuel s acc buf buf' pos Lb Lb'. destruct fuel as [|fuel]; cbn [uniform_loop]; [reflexivity|].
  destruct (length acc <? 256)%nat; [|reflexivity]. cbv zeta. rewrite Lb, Lb', !Nat.sub_0_r, !skipn_all. reflexivity.
Qed.
Lemma squeeze_mod3 : forall s pos, (length (squeeze s pos SHAKE128_RATE) mod 3 = 0)%nat.
Proof. intros. rewrite squeeze_length. reflexivity. Qed.
Lemma lanes_step : forall fuel ss accs pos, Forall (fun acc => (length acc <= 256)%nat) accs ->
  lanes_run (S fuel) ss accs pos =
  lanes_run fuel ss (map2 (fun s acc => acc ++ rej_uniform (256 - length acc) (squeeze s pos SHAKE128_RATE)) ss accs) (pos + SHAKE128_RATE).
Proof.
  intros fuel ss. induction ss as [|s ss IH]; intros [|acc accs] pos F; try reflexivity. inversion F; subst.
  cbn [lanes_run map2]. rewrite uniform_step by (assumption || reflexivity). rewrite IH by assumption.
  rewrite (uniform_loop_buf fuel s _ (squeeze s pos SHAKE128_RATE) []) by (apply squeeze_mod3 || reflexivity). reflexivity.
Qed.
Lemma uniform_loop_full : forall fuel s acc pos, length acc = 256%nat -> uniform_loop fuel s acc [] pos = CRet acc.
Proof. intros [|fuel] s acc pos L; cbn [uniform_loop]; rewrite L; reflexivity. Qed.
Lemma lanes_done : forall fuel ss st accs pos, length ss = length st -> Forall2 lane_ok st accs ->
  existsb (fun ac => (snd ac <? 256)%nat) st = false -> lanes_run fuel ss accs pos = CRet (map fst st).
Proof.
  intros fuel ss st accs pos L F. revert ss L. induction F as [|ac acc st accs H F IH]; intros [|s ss] L E; try discriminate L; [reflexivity|].
  cbn [existsb] in E. apply orb_false_iff in E. destruct E as [E1 E2]. apply Nat.ltb_ge in E1.
  destruct H as (La & Hc & Hl & Hf). cbn [lanes_run map]. rewrite uniform_loop_full by lia. cbn [cbind]. rewrite IH by (cbn in L; lia || assumption). cbn [cbind].
  rewrite firstn_all2 in Hf by lia. rewrite <- Hf. reflexivity.
Qed.
Lemma lanes_starved : forall ss st accs pos, length ss = length st -> Forall2 lane_ok st accs ->
  existsb (fun ac => (snd ac <? 256)%nat) st = true -> lanes_run 0 ss accs pos = CFuel.
Proof.
  intros ss st accs pos L F. revert ss L. induction F as [|ac acc st accs H F IH]; intros [|s ss] L E; try discriminate L; [discriminate E|].
  cbn [existsb] in E. destruct H as (La & Hc & Hl & Hf). cbn [lanes_run uniform_loop].
  destruct (Nat.ltb_spec (length acc) 256) as [H|H]; [reflexivity|]. cbn [cbind].
  destruct (Nat.ltb_spec (snd ac) 256); [lia|]. cbn [orb] in E. rewrite IH by (cbn in L; lia || assumption). reflexivity.
Qed.
Lemma uniform4_loop_ok : forall fuel ss st accs pos, length ss = length st -> Forall2 lane_ok st accs ->
  uniform4_loop fuel ss st pos = lanes_run fuel ss accs pos.
Proof.
  induction fuel as [|fuel IH]; intros ss st accs pos L F; cbn [uniform4_loop].
  - destruct (existsb _ st) eqn:E; symmetry; [eapply lanes_starved|eapply lanes_done]; eassumption.
  - destruct (existsb _ st) eqn:E; [|symmetry; eapply lanes_done; eassumption].
    destruct (refills_ok pos ss st accs F L) as (st' & E' & F'). rewrite E'. cbn [cbind].
    rewrite lanes_step by (clear - F; induction F as [|? ? ? ? H]; constructor; [apply H|assumption]).
    apply IH; [|exact F']. apply Forall2_length in F'. rewrite F'. clear - F L. apply Forall2_length in F.
    rewrite map2_length. lia.
Qed.
Lemma uniform4_first : forall e s, ctx_ok e ->
  exists ac, rej_uniform_avx (raw e 256) (squeeze s 0 840 ++ raw e 8) = CRet ac /\ lane_ok ac (rej_uniform 256 (squeeze s 0 840)).
Proof.
  intros e s He. destruct (rej_uniform_avx_ok (squeeze s 0 840 ++ raw e 8)) with (r := raw e 256) as (r' & E & L & F).
  - rewrite app_length, squeeze_length, raw_length. lia.
  - unfold is_bytes. apply Forall_app. split; [apply squeeze_bytes|apply raw_bytes; exact He].
  - apply raw_length.
  - assert (G : firstn 840 (squeeze s 0 840 ++ raw e 8) = squeeze s 0 840).
    { rewrite firstn_app, squeeze_length, Nat.sub_diag, firstn_O, app_nil_r. apply firstn_all2. rewrite squeeze_length. lia. }
    rewrite G in *. eexists. split; [exact E|]. unfold lane_ok. cbn [fst snd]. split; [exact L|]. split; [reflexivity|]. split; [apply rej_uniform_le|exact F].
Qed.
Lemma poly_uniform_run : forall fuel X seed n, poly_uniform fuel X seed n = uniform_loop fuel (stream128 X seed n) (rej_uniform 256 (squeeze (stream128 X seed n) 0 840)) [] 840.
Proof.
  intros. unfold poly_uniform. cbv zeta. change ((768 + SHAKE128_RATE - 1) / SHAKE128_RATE * SHAKE128_RATE)%nat with 840%nat.
  apply uniform_loop_buf; [rewrite squeeze_length|]; reflexivity.
Qed.
Lemma mapM_ext : forall {A B} (f g : A -> crun B) l, (forall x, In x l -> f x = g x) -> mapM f l = mapM g l.
Proof.
  intros A B f g l H. induction l as [|x l IH]; [reflexivity|]. cbn [mapM]. rewrite (H x (or_introl eq_refl)). rewrite IH; [reflexivity|].
  intros y Hy. apply H. right. exact Hy.
Qed.
Theorem poly_uniform_4x_ok : forall e fuel X seed nonces, ctx_ok e -> Forall (fun n => 0 <= n < 65536) nonces ->
  poly_uniform_4x e fuel X seed nonces = mapM (poly_uniform fuel X (firstn 32 seed)) nonces.
Proof.
  intros e fuel X seed nonces He Fn. unfold poly_uniform_4x. cbv zeta.
  assert (G : forall l, exists st, mapM (fun s => rej_uniform_avx (raw e 256) (squeeze s 0 840 ++ raw e 8)) l = CRet st /\
    Forall2 lane_ok st (map (fun s => rej_uniform 256 (squeeze s 0 840)) l)).
  { induction l as [|s l IH]; [exists []; split; [reflexivity|constructor]|]. destruct IH as (st & E & F). destruct (uniform4_first e s He) as (ac & Ea & Fa).
    cbn [mapM]. rewrite Ea. cbn [cbind]. rewrite E. cbn [cbind map]. eexists. split; [reflexivity|]. constructor; assumption. }
  destruct (G (map (fun n => stream128 X (firstn 32 seed) (u16 n)) nonces)) as (st & E & F). rewrite E. cbn [cbind]. clear E G.
  rewrite (uniform4_loop_ok fuel _ st (map (fun s => rej_uniform 256 (squeeze s 0 840)) (map (fun n => stream128 X (firstn 32 seed) (u16 n)) nonces)) 840).
  2:{ apply Forall2_length in F. rewrite F, !map_length. reflexivity. } 2: exact F. clear F st.
  induction nonces as [|n nonces IH]; [reflexivity|]. apply Forall_cons_iff in Fn. destruct Fn as [Hn Fn]. cbn [map lanes_run mapM].
  rewrite poly_uniform_run. unfold u16 at 1 2. rewrite (Z.mod_small n) by exact Hn. rewrite IH by exact Fn. reflexivity.
Qed.

(** ** The matrix and the masking vector *)
Lemma bind_map : forall {A B C} (f : A -> crun B) (g : B -> C) l,
  (do r <- mapM f l ;; CRet (map g r)) = mapM (fun x => do y <- f x ;; CRet (g y)) l.
Proof.
  intros A B C f g l. induction l as [|x l IH]; [reflexivity|]. cbn [mapM]. rewrite <- IH.
  destruct (f x); cbn [cbind]; [|reflexivity|reflexivity]. destruct (mapM f l); reflexivity.
Qed.
Lemma bind_ext : forall {A B} (x : crun A) (f g : A -> crun B), (forall a, x = CRet a -> f a = g a) -> cbind x f = cbind x g.
Proof. intros A B [a| |] f g H; cbn [cbind]; [apply H|..]; reflexivity. Qed.
Theorem matrix_row_avx_ok : forall e fuel X rho i, ctx_ok e -> (i < 4)%nat ->
  matrix_expand_row e fuel X rho i =
  (do row <- mapM (fun j => poly_uniform fuel X (firstn 32 rho) (Z.shiftl (Z.of_nat i) 8 + Z.of_nat j)) (seq 0 4) ;; CRet (map unpacked row)).
Proof.
  intros e fuel X rho i He Hi. unfold matrix_expand_row.
  rewrite poly_uniform_4x_ok; [|exact He|].
  2:{ apply Forall_map, Forall_forall. intros j Hj. apply in_seq in Hj. lia. }
  assert (E : mapM (poly_uniform fuel X (firstn 32 rho)) (map (fun j => 256 * Z.of_nat i + Z.of_nat j) (seq 0 4)) =
    mapM (fun j => poly_uniform fuel X (firstn 32 rho) (Z.shiftl (Z.of_nat i) 8 + Z.of_nat j)) (seq 0 4)).
  { generalize (seq 0 4). intro l. induction l as [|j l IH]; [reflexivity|]. cbn [map mapM]. rewrite IH.
    rewrite Z.shiftl_mul_pow2 by lia. change (2 ^ 8) with 256. rewrite (Z.mul_comm 256). reflexivity. }
  rewrite E. apply bind_ext. intros row Hr. do 1 f_equal. apply map_ext_in. intros a Ha. apply nttunpack_ok; [apply He|].
  assert (S : safe (mapM (fun j => poly_uniform fuel X (firstn 32 rho) (Z.shiftl (Z.of_nat i) 8 + Z.of_nat j)) (seq 0 4))
    (fun l' => length l' = length (seq 0 4) /\ Forall (fun a => length a = 256%nat /\ Forall (fun x => 0 <= x < Q) a) l')).
  { apply safe_mapM. intros j _. apply poly_uniform_ok. }
  apply (safe_inv _ _ _ S) in Hr. destruct Hr as [_ F]. rewrite Forall_forall in F. apply (F a Ha).
Qed.
Theorem matrix_expand_avx_ok : forall e fuel X rho, ctx_ok e ->
  matrix_expand_avx e fuel X rho = (do mat <- polyvec_matrix_expand fuel X (firstn 32 rho) ;; CRet (map (map unpacked) mat)).
Proof.
  intros e fuel X rho He. unfold matrix_expand_avx, polyvec_matrix_expand. rewrite bind_map. apply mapM_ext.
  intros i Hi. apply in_seq in Hi. apply matrix_row_avx_ok; [exact He|lia].
Qed.
Lemma firstn_slice0 : forall (a : bytes) n, slice a 0 n = firstn n a. Proof. reflexivity. Qed.
Theorem gamma1_4x_ok : forall e X seed nonces, ctx_ok e ->
  gamma1_4x e X seed nonces = CRet (map (fun n => poly_uniform_gamma1 X (firstn 64 seed) (u16 n)) nonces).
Proof.
  intros e X seed nonces He. unfold gamma1_4x. induction nonces as [|n l IH]; [reflexivity|]. cbn [mapM map].
  rewrite polyz_unpack_avx_ok.
  - rewrite IH. cbn [cbind].
    assert (E : slice (squeeze (stream256 X (firstn 64 seed) (u16 n)) 0 680 ++ raw e 14) 0 576 = firstn 576 (squeeze (stream256 X (firstn 64 seed) (u16 n)) 0 680)).
    { rewrite firstn_slice0, firstn_app, squeeze_length. change (576 - 680)%nat with 0%nat. rewrite firstn_O, app_nil_r. reflexivity. }
    rewrite E. reflexivity.
  - rewrite app_length, squeeze_length, raw_length. lia.
  - unfold is_bytes. apply Forall_app. split; [apply squeeze_bytes|apply raw_bytes; exact He].
Qed.
(** With the nonces of signing attempt [kappa] these are the four polynomials of the CLEAN build. *)
Theorem gamma1_vec_avx_ok : forall e X seed nonce kappa, ctx_ok e -> length seed = 64%nat -> nonce mod 65536 = (4 * kappa) mod 65536 ->
  gamma1_4x e X seed [nonce; nonce + 1; nonce + 2; nonce + 3] = CRet (polyvecl_uniform_gamma1 X seed kappa).
Proof.
  intros e X seed nonce kappa He Ls Hn. rewrite gamma1_4x_ok by exact He. rewrite firstn_all2 by lia.
  assert (G : forall k, u16 (nonce + k) = u16 (4 * kappa + k)).
  { intro k. unfold u16. rewrite Z.add_mod, Hn, <- Z.add_mod by lia. reflexivity. }
  unfold polyvecl_uniform_gamma1. cbn [seq map]. change (Z.of_nat 0) with 0. change (Z.of_nat 1) with 1. change (Z.of_nat 2) with 2. change (Z.of_nat 3) with 3.
  rewrite <- !G, Z.add_0_r. reflexivity.
Qed.
