(** * DilShake: the Dilithium2 code on top of fips202.c (C61).

    DilPoly, DilPack and DilSign model hashing as reading a stream determined by the absorbed
    bytes.  Here the functions that hash are modelled again, this time with the calls into
    fips202.c that the C code makes and the contexts these calls update, and are proved equal to
    the ones used everywhere else, when the stream is the SHAKE stream of FIPS 202. *)
From Coq Require Import ZArith List Lia Bool.
From Verif Require Import Keccak KeccakSpec KeccakPerm KeccakSponge KeccakProps PropsKeccak.
From Verif Require Import Base Bits SaberPoly SaberRing DilArith DilNtt DilPoly DilPack DilSample DilSign DilCorrect DilProps DilSampleSpec.
Import ListNotations.
Open Scope Z_scope.
Local Opaque StatePermute keccak_f.

(** ** The streams of FIPS 202 *)
(** Byte i of a bit string. *)
Definition byte_at (l : list bool) (i : nat) : Z :=
  fold_right Z.add 0 (map (fun k => if nth (8 * i + k) l false then 2 ^ Z.of_nat k else 0) (seq 0 8)).
Definition fips_xof : xof := {|
  shake128 := fun m i => byte_at (SHAKE128 (bits_of_bytes m) (8 * (i + 1))) i;
  shake256 := fun m i => byte_at (SHAKE256 (bits_of_bytes m) (8 * (i + 1))) i |}.

(** ** The C functions, with their contexts *)
(** symmetric-shake.c 6-15 and 17-26. *)
Definition shake128_stream_init (seed : bytes) (nonce : Z) : incctx :=
  let t := [u8 nonce; u8 (Z.shiftr nonce 8)] in
  let state := shake128_inc_init in
  let state := shake128_inc_absorb state seed in
  let state := shake128_inc_absorb state t in
  shake128_inc_finalize state.
Definition shake256_stream_init (seed : bytes) (nonce : Z) : incctx :=
  let t := [u8 nonce; u8 (Z.shiftr nonce 8)] in
  let state := shake256_inc_init in
  let state := shake256_inc_absorb state seed in
  let state := shake256_inc_absorb state t in
  shake256_inc_finalize state.
(** symmetric.h 23-24, 29-30: stream128_squeezeblocks, stream256_squeezeblocks. *)
Definition stream128_squeezeblocks (n : nat) (c : incctx) : bytes * incctx := shake128_inc_squeeze (n * 168) c.
Definition stream256_squeezeblocks (n : nat) (c : incctx) : bytes * incctx := shake256_inc_squeeze (n * 136) c.
(** poly.c 346-371. *)
Fixpoint uniform_loop_c (fuel : nat) (a : list Z) (buf : bytes) (state : incctx) : crun poly :=
  if (length a <? 256)%nat then
    match fuel with
    | O => CFuel
    | S f =>
        let off := (length buf mod 3)%nat in
        let (block, state) := stream128_squeezeblocks 1 state in
        let buf := skipn (length buf - off) buf ++ block in
        uniform_loop_c f (a ++ rej_uniform (256 - length a) buf) buf state
    end
  else CRet a.
Definition poly_uniform_c (fuel : nat) (seed : bytes) (nonce : Z) : crun poly :=
  let state := shake128_stream_init seed nonce in
  let (buf, state) := stream128_squeezeblocks 5 state in
  uniform_loop_c fuel (rej_uniform 256 buf) buf state.
(** poly.c 425-444. *)
Fixpoint eta_loop_c (fuel : nat) (a : list Z) (state : incctx) : crun poly :=
  if (length a <? 256)%nat then
    match fuel with
    | O => CFuel
    | S f => let (buf, state) := stream256_squeezeblocks 1 state in
             eta_loop_c f (a ++ rej_eta (256 - length a) buf) state
    end
  else CRet a.
Definition poly_uniform_eta_c (fuel : nat) (seed : bytes) (nonce : Z) : crun poly :=
  let state := shake256_stream_init seed nonce in
  let (buf, state) := stream256_squeezeblocks 1 state in
  eta_loop_c fuel (rej_eta 256 buf) state.
(** poly.c 457-468; polyz_unpack reads the first POLYZ_PACKEDBYTES = 576 bytes. *)
Definition poly_uniform_gamma1_c (seed : bytes) (nonce : Z) : poly :=
  let state := shake256_stream_init seed nonce in
  let (buf, _) := stream256_squeezeblocks 5 state in
  polyz_unpack (firstn 576 buf).
(** poly.c 501-508: the do-while loop with its buffer. *)
Fixpoint draw_c (fuel : nat) (buf : bytes) (pos : nat) (state : incctx) (i : Z) : crun (Z * bytes * nat * incctx) :=
  match fuel with
  | O => CFuel
  | S f =>
      let '(buf, pos, state) := if (136 <=? pos)%nat
        then let (buf, state) := shake256_inc_squeeze 136 state in (buf, 0%nat, state) else (buf, pos, state) in
      let b := at_ buf pos in
      if i <? b then draw_c f buf (S pos) state i else CRet (b, buf, S pos, state)
  end.
(** poly.c 480-515. *)
Definition challenge_step_c (fuel : nat) (st : poly * Z * bytes * nat * incctx) (i : nat) : crun (poly * Z * bytes * nat * incctx) :=
  let '(c, signs, buf, pos, state) := st in
  do r <- draw_c fuel buf pos state (Z.of_nat i) ;;
  let '(b, buf, pos, state) := r in
  let c1 := SaberPoly.upd c i (at_ c (Z.to_nat b)) in
  let c2 := SaberPoly.upd c1 (Z.to_nat b) (1 - 2 * Z.land signs 1) in
  CRet (c2, Z.shiftr signs 1, buf, pos, state).
Definition poly_challenge_c (fuel : nat) (seed : bytes) : crun poly :=
  let state := shake256_inc_init in
  let state := shake256_inc_absorb state (firstn 32 seed) in
  let state := shake256_inc_finalize state in
  let (buf, state) := shake256_inc_squeeze 136 state in
  let signs := sign_bits buf in
  do st <- foldM (challenge_step_c fuel) (seq (256 - TAU) TAU) (repeat 0 256, signs, buf, 8%nat, state) ;;
  let '(c, _, _, _, _) := st in CRet c.
(** sign.c 129-134 and 285-290 (mu), 163-168 and 314-319 (the challenge hash): init, absorb two
    strings, finalize, squeeze. *)
Definition hash2_c (n : nat) (a b : bytes) : bytes :=
  let state := shake256_inc_init in
  let state := shake256_inc_absorb state a in
  let state := shake256_inc_absorb state b in
  let state := shake256_inc_finalize state in
  fst (shake256_inc_squeeze n state).

(** ** Streams *)
Lemma byte_at_bits : forall l i, is_bytes l -> byte_at (bits_of_bytes l) i = at_ l i.
Proof.
  intros l i B. unfold byte_at, at_. assert (V := nth_byte l i B). set (b := nth i l 0) in *.
  assert (E : map (fun k => if nth (8 * i + k) (bits_of_bytes l) false then 2 ^ Z.of_nat k else 0) (seq 0 8) =
              map (fun k => if Z.testbit b (Z.of_nat k) then 2 ^ Z.of_nat k else 0) (seq 0 8)).
  { apply map_ext_in. intros k K. apply in_seq in K. rewrite nth_bits. unfold mbit.
    rewrite (Nat.mul_comm 8), Nat.div_add_l, (Nat.div_small k), Nat.add_0_r, (Nat.add_comm (i * 8)), Nat.mod_add, Nat.mod_small by lia. reflexivity. }
  rewrite E. clear E. clearbody b. cbn [seq map fold_right Z.of_nat Pos.of_succ_nat Pos.succ].
  assert (G : forall n, 0 <= n -> (if Z.testbit b n then 2 ^ n else 0) = (b / 2 ^ n mod 2) * 2 ^ n).
  { intros n N. rewrite <- Z.testbit_spec' by exact N. destruct (Z.testbit b n); cbn [Z.b2z]; lia. }
  rewrite !G by lia. clear G. change (2 ^ 0) with 1. change (2 ^ 1) with 2. change (2 ^ 2) with 4. change (2 ^ 3) with 8.
  change (2 ^ 4) with 16. change (2 ^ 5) with 32. change (2 ^ 6) with 64. change (2 ^ 7) with 128.
  unfold is_byte in V. Z.div_mod_to_equations. lia.
Qed.
Lemma stream_eq : forall r sfx (spec : list bool -> nat -> list bool) m i, rate r -> domain 31 sfx -> is_bytes m ->
  spec (bits_of_bytes m) (8 * (i + 1))%nat = sponge (8 * r) (bits_of_bytes m ++ sfx) (8 * (i + 1)) ->
  byte_at (spec (bits_of_bytes m) (8 * (i + 1))%nat) i = obyte r (padstate r 31 m) i.
Proof.
  intros r sfx spec m i R D B E. rewrite E. destruct (obytes_xof r 31 sfx m (i + 1) R D B) as (O1 & O2 & O3). rewrite <- O3, byte_at_bits by exact O1.
  unfold at_. rewrite (nth_indep _ 0 (obyte r (padstate r 31 m) 0)) by (rewrite O2; lia). rewrite map_nth, seq_nth by lia. reflexivity.
Qed.
Lemma stream128_eq : forall m i, is_bytes m -> shake128 fips_xof m i = obyte 168 (padstate 168 31 m) i.
Proof. intros m i B. exact (stream_eq 168 _ SHAKE128 m i rate168 shake_domain B eq_refl). Qed.
Lemma stream256_eq : forall m i, is_bytes m -> shake256 fips_xof m i = obyte 136 (padstate 136 31 m) i.
Proof. intros m i B. exact (stream_eq 136 _ SHAKE256 m i rate136 shake_domain B eq_refl). Qed.
Lemma u8_obyte : forall r F i, u8 (obyte r F i) = obyte r F i.
Proof. intros. apply u8_id, obyte_byte. Qed.
Lemma squeeze128_eq : forall m p n, is_bytes m -> squeeze (shake128 fips_xof m) p n = map (obyte 168 (padstate 168 31 m)) (seq p n).
Proof. intros m p n B. unfold squeeze. apply map_ext. intro i. rewrite stream128_eq by exact B. apply u8_obyte. Qed.
Lemma squeeze256_eq : forall m p n, is_bytes m -> squeeze (shake256 fips_xof m) p n = map (obyte 136 (padstate 136 31 m)) (seq p n).
Proof. intros m p n B. unfold squeeze. apply map_ext. intro i. rewrite stream256_eq by exact B. apply u8_obyte. Qed.

(** The context that has absorbed m, been finalised and squeezed p bytes. *)
Definition ctx128 (m : bytes) (p : nat) : incctx := sq_at 168 (padstate 168 31 m) p.
Definition ctx256 (m : bytes) (p : nat) : incctx := sq_at 136 (padstate 136 31 m) p.
Lemma ctx128_squeeze : forall m p n, is_bytes m ->
  shake128_inc_squeeze n (ctx128 m p) = (squeeze (shake128 fips_xof m) p n, ctx128 m (p + n)).
Proof. intros m p n B. rewrite squeeze128_eq by exact B. apply inc_squeeze_any. lia. Qed.
Lemma ctx256_squeeze : forall m p n, is_bytes m ->
  shake256_inc_squeeze n (ctx256 m p) = (squeeze (shake256 fips_xof m) p n, ctx256 m (p + n)).
Proof. intros m p n B. rewrite squeeze256_eq by exact B. apply inc_squeeze_any. lia. Qed.
Lemma ctx256_start : forall chunks, Forall is_bytes chunks ->
  shake256_inc_finalize (fold_left shake256_inc_absorb chunks shake256_inc_init) = ctx256 (concat chunks) 0.
Proof.
  intros chunks B. unfold ctx256. rewrite sq_at_0 by lia. apply (session_start 136 31); [apply rate136|exact B|lia].
Qed.
Lemma ctx128_start : forall chunks, Forall is_bytes chunks ->
  shake128_inc_finalize (fold_left shake128_inc_absorb chunks shake128_inc_init) = ctx128 (concat chunks) 0.
Proof.
  intros chunks B. unfold ctx128. rewrite sq_at_0 by lia. apply (session_start 168 31); [apply rate168|exact B|lia].
Qed.
Lemma nonce_bytes_ok : forall nonce, is_bytes (nonce_bytes nonce).
Proof. intro nonce. constructor; [apply u8_range|]. constructor; [apply u8_range|constructor]. Qed.
Lemma stream128_init_eq : forall seed nonce, is_bytes seed -> shake128_stream_init seed nonce = ctx128 (seed ++ nonce_bytes nonce) 0.
Proof.
  intros seed nonce B. pose proof (ctx128_start [seed; nonce_bytes nonce]) as E. cbn [fold_left concat] in E. rewrite app_nil_r in E. apply E.
  constructor; [exact B|]. constructor; [apply nonce_bytes_ok|constructor].
Qed.
Lemma stream256_init_eq : forall seed nonce, is_bytes seed -> shake256_stream_init seed nonce = ctx256 (seed ++ nonce_bytes nonce) 0.
Proof.
  intros seed nonce B. pose proof (ctx256_start [seed; nonce_bytes nonce]) as E. cbn [fold_left concat] in E. rewrite app_nil_r in E. apply E.
  constructor; [exact B|]. constructor; [apply nonce_bytes_ok|constructor].
Qed.
Lemma seed_bytes : forall seed nonce, is_bytes seed -> is_bytes (seed ++ nonce_bytes nonce).
Proof. intros. apply Forall_app. split; [assumption|apply nonce_bytes_ok]. Qed.

(** ** The samplers *)
Lemma uniform_loop_eq : forall m, is_bytes m -> forall fuel a buf p,
  uniform_loop_c fuel a buf (ctx128 m p) = uniform_loop fuel (shake128 fips_xof m) a buf p.
Proof.
  intros m B fuel. induction fuel as [|f IH]; intros a buf p; cbn [uniform_loop_c uniform_loop]; destruct (length a <? 256)%nat; try reflexivity.
  unfold stream128_squeezeblocks. rewrite Nat.mul_1_l, ctx128_squeeze by exact B. apply IH.
Qed.
Theorem poly_uniform_fips : forall fuel seed nonce, is_bytes seed -> poly_uniform_c fuel seed nonce = poly_uniform fuel fips_xof seed nonce.
Proof.
  intros fuel seed nonce B. unfold poly_uniform_c, poly_uniform, stream128, stream128_squeezeblocks. assert (SB := seed_bytes seed nonce B).
  rewrite stream128_init_eq by exact B. rewrite ctx128_squeeze by exact SB. rewrite uniform_loop_eq by exact SB. reflexivity.
Qed.
Lemma eta_loop_eq : forall m, is_bytes m -> forall fuel a p, eta_loop_c fuel a (ctx256 m p) = eta_loop fuel (shake256 fips_xof m) a p.
Proof.
  intros m B fuel. induction fuel as [|f IH]; intros a p; cbn [eta_loop_c eta_loop]; destruct (length a <? 256)%nat; try reflexivity.
  unfold stream256_squeezeblocks. rewrite Nat.mul_1_l, ctx256_squeeze by exact B. apply IH.
Qed.
Theorem poly_uniform_eta_fips : forall fuel seed nonce, is_bytes seed -> poly_uniform_eta_c fuel seed nonce = poly_uniform_eta fuel fips_xof seed nonce.
Proof.
  intros fuel seed nonce B. unfold poly_uniform_eta_c, poly_uniform_eta, stream256, stream256_squeezeblocks. assert (SB := seed_bytes seed nonce B).
  rewrite stream256_init_eq by exact B. rewrite ctx256_squeeze by exact SB. rewrite eta_loop_eq by exact SB. reflexivity.
Qed.
Lemma mask_blocks : forall f a b, a = b -> polyz_unpack (firstn 576 (squeeze f 0 a)) = polyz_unpack (firstn 576 (squeeze f 0 b)).
Proof. intros f a b ->. reflexivity. Qed.
Theorem poly_uniform_gamma1_fips : forall seed nonce, is_bytes seed -> poly_uniform_gamma1_c seed nonce = poly_uniform_gamma1 fips_xof seed nonce.
Proof.
  intros seed nonce B. unfold poly_uniform_gamma1_c, poly_uniform_gamma1, stream256, stream256_squeezeblocks. assert (SB := seed_bytes seed nonce B).
  rewrite stream256_init_eq by exact B. rewrite ctx256_squeeze by exact SB.
  cbv beta iota zeta. apply mask_blocks. apply Nat.eqb_eq. reflexivity.
Qed.
(** The buffer of poly_challenge holds block k of the stream. *)
Definition chal_buf (m : bytes) (k : nat) : bytes := squeeze (shake256 fips_xof m) (k * 136) 136.
Definition chal_ctx (m : bytes) (k : nat) : incctx := ctx256 m (k * 136 + 136).
Lemma chal_at : forall m k pos, (pos < 136)%nat -> at_ (chal_buf m k) pos = u8 (shake256 fips_xof m (k * 136 + pos)%nat).
Proof.
  intros m k pos L. unfold chal_buf, squeeze, at_. set (f := fun i => u8 (shake256 fips_xof m i)).
  rewrite (nth_indep _ 0 (f 0%nat)) by (rewrite map_length, seq_length; exact L). rewrite map_nth, seq_nth by exact L. reflexivity.
Qed.
Definition chal_rel (m : bytes) (pos_stream : nat) (buf : bytes) (pos : nat) (state : incctx) : Prop :=
  exists k, (pos <= 136)%nat /\ pos_stream = (k * 136 + pos)%nat /\ buf = chal_buf m k /\ state = chal_ctx m k.
Lemma draw_eq : forall m, is_bytes m -> forall fuel i ps buf pos state, chal_rel m ps buf pos state ->
  match draw_le fuel (shake256 fips_xof m) ps i with
  | CRet (b, ps') => exists buf' pos' state', draw_c fuel buf pos state i = CRet (b, buf', pos', state') /\ chal_rel m ps' buf' pos' state'
  | CUB => draw_c fuel buf pos state i = CUB
  | CFuel => draw_c fuel buf pos state i = CFuel
  end.
Proof.
  intros m B fuel i. induction fuel as [|f IH]; intros ps buf pos state (k & L & -> & -> & ->); [reflexivity|].
  cbn [draw_le draw_c].
  assert (G : exists k' pos', (pos' < 136)%nat /\ (k' * 136 + pos' = k * 136 + pos)%nat /\
    (if (136 <=? pos)%nat then let (buf, state) := shake256_inc_squeeze 136 (chal_ctx m k) in (buf, 0%nat, state) else (chal_buf m k, pos, chal_ctx m k)) =
    (chal_buf m k', pos', chal_ctx m k')).
  { destruct (Nat.leb_spec 136 pos) as [T|T].
    - exists (k + 1)%nat, 0%nat. split; [lia|]. split; [lia|]. unfold chal_ctx at 1. rewrite ctx256_squeeze by exact B.
      unfold chal_buf, chal_ctx. replace ((k + 1) * 136)%nat with (k * 136 + 136)%nat by lia. reflexivity.
    - exists k, pos. repeat split; (lia || reflexivity). }
  destruct G as (k' & pos' & L' & E & ->). rewrite <- E, <- chal_at by exact L'.
  destruct (i <? at_ (chal_buf m k') pos').
  - apply IH. exists k'. repeat split; lia.
  - do 3 eexists. split; [reflexivity|]. exists k'. repeat split; lia.
Qed.
Lemma challenge_fold_eq : forall m, is_bytes m -> forall fuel l c signs ps buf pos state, chal_rel m ps buf pos state ->
  (do st <- foldM (challenge_step_c fuel) l (c, signs, buf, pos, state) ;; let '(c, _, _, _, _) := st in CRet c) =
  (do (c, _, _) <- foldM (challenge_step fuel (shake256 fips_xof m)) l (c, signs, ps) ;; CRet c).
Proof.
  intros m B fuel l. induction l as [|i l IH]; intros c signs ps buf pos state R; [reflexivity|]. cbn [foldM]. unfold challenge_step_c at 1, challenge_step at 1.
  pose proof (draw_eq m B fuel (Z.of_nat i) ps buf pos state R) as D.
  destruct (draw_le fuel (shake256 fips_xof m) ps (Z.of_nat i)) as [[b ps']| |].
  - destruct D as (buf' & pos' & state' & E & R'). rewrite E. cbn [cbind]. apply IH, R'.
  - rewrite D. reflexivity.
  - rewrite D. reflexivity.
Qed.
Lemma sign_bits_prefix : forall s, sign_bits (squeeze s 0 136) = sign_bits (squeeze s 0 8).
Proof. intro s. reflexivity. Qed.
Theorem poly_challenge_fips : forall fuel seed, is_bytes seed -> poly_challenge_c fuel seed = poly_challenge fuel fips_xof seed.
Proof.
  intros fuel seed B. unfold poly_challenge_c, poly_challenge. assert (FB : is_bytes (firstn 32 seed)) by (apply is_bytes_firstn, B).
  revert FB. generalize (firstn 32 seed). intros m FB. cbv zeta.
  assert (E0 : shake256_inc_finalize (shake256_inc_absorb shake256_inc_init m) = ctx256 m 0).
  { pose proof (ctx256_start [m]) as E. cbn [fold_left concat] in E. rewrite app_nil_r in E. apply E. constructor; [exact FB|constructor]. }
  rewrite E0, ctx256_squeeze by exact FB.
  rewrite sign_bits_prefix.
  apply (challenge_fold_eq m FB). exists 0%nat. repeat split; lia.
Qed.

(** ** The hashes of sign.c *)
Theorem hash2_fips : forall n a b, is_bytes a -> is_bytes b -> hash2_c n a b = H256 fips_xof n (a ++ b).
Proof.
  intros n a b A B. unfold hash2_c, H256. pose proof (ctx256_start [a; b]) as E. cbn [fold_left concat] in E. rewrite app_nil_r in E. rewrite E.
  - rewrite ctx256_squeeze by (apply Forall_app; split; assumption). reflexivity.
  - constructor; [exact A|]. constructor; [exact B|constructor].
Qed.
Theorem shake256_fips : forall n m, is_bytes m -> c_shake256 n m = H256 fips_xof n m.
Proof.
  intros n m B. unfold H256. rewrite squeeze256_eq by exact B. unfold c_shake256, R_SHAKE256. apply c_shake_eq; [apply rate136|exact B].
Qed.
